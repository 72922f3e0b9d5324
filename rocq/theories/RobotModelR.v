(** Mass matrix and frame kinematics of the robot wrapper, over the reals. *)
From Coq Require Import List Arith Bool ZArith Reals Lia Lra.
From Verif Require Import Scalar Outcome Linalg RSum RobotModel.
Import ListNotations.
Open Scope list_scope.
Open Scope nat_scope.
Ltac rring := match goal with |- @eq _ ?a ?b => change (@eq R a b) end; ring.

(** * Mass matrix *)
Notation rrobot := (robot Rnum).
(** The parameters in force: those of the last setter called with the right size, else 0. *)
Fixpoint last_rotor (na : nat) (r : nat -> R) (ops : list (rop Rnum)) : nat -> R :=
  match ops with [] => r | RRotor v :: l => last_rotor na (if vlen v =? na then vget v else r) l | _ :: l => last_rotor na r l end.
Fixpoint last_gear (na : nat) (g : nat -> R) (ops : list (rop Rnum)) : nat -> R :=
  match ops with [] => g | RGear v :: l => last_gear na (if vlen v =? na then vget v else g) l | _ :: l => last_gear na g l end.
Definition square (n : nat) (D : mat Rnum) : Prop := mrows D = n /\ mcols D = n.
Definition mass_ok (nv : nat) (o : rop Rnum) : Prop := match o with RMass D => square nv D | _ => True end.
(** All coordinates with a fixed base, all but the six of the base otherwise. *)
Definition joints (c : rctor) (nv : nat) : nat := match c with CUrdf | CModelFixed => nv | CUrdfRoot | CModel | CModelFloating => nv - 6 end.
Definition floating (c : rctor) : Prop := match c with CUrdf | CModelFixed => False | CUrdfRoot | CModel | CModelFloating => True end.
Lemma joints_code c nv : joints c nv = if fixed_base c then nv else nv - 6.
Proof. destruct c; reflexivity. Qed.
Theorem robot_new_floating c nv : floating c -> nv < 6 -> @robot_new Rnum c nv = None.
Proof. intros F H. unfold robot_new. apply Nat.leb_gt in H. destruct c; try contradiction; cbn [fixed_base orb]; rewrite H; reflexivity. Qed.
Theorem robot_new_joints c nv : (floating c -> 6 <= nv) -> exists r, @robot_new Rnum c nv = Some r /\ r_na r = joints c nv /\ r_nv r = nv.
Proof.
  intros F. unfold robot_new. assert (G : fixed_base c || (6 <=? nv) = true) by (destruct c; cbn [fixed_base orb]; try reflexivity; apply Nat.leb_le, F; exact I). rewrite G. eexists. split; [reflexivity|]. rewrite joints_code. split; reflexivity.
Qed.
Definition robot_ok (nv na : nat) (rot gear : nat -> R) (r : rrobot) : Prop :=
  r_nv r = nv /\ r_na r = na /\ vlen (r_rotor r) = na /\ vlen (r_gear r) = na /\ vlen (r_Md r) = na /\ na <= nv /\
  (forall i, i < na -> vget (r_rotor r) i = rot i) /\ (forall i, i < na -> vget (r_gear r) i = gear i) /\ (forall i, i < na -> vget (r_Md r) i = (gear i * gear i * rot i)%R).
Lemma robot_run nv na ops : Forall (mass_ok nv) ops -> forall rot gear r, robot_ok nv na rot gear r ->
  exists r', run robot_step r ops = Some r' /\ robot_ok nv na (last_rotor na rot ops) (last_gear na gear ops) r'.
Proof.
  induction ops as [|o ops IH]; intros F rot gear r (I1 & I2 & I3 & I4 & I5 & I6 & I7 & I8 & I9); [exists r; split; [reflexivity|repeat split; assumption]|].
  inversion F as [|? ? F1 F2]; subst. destruct o as [v|v|D]; cbn [run robot_step last_rotor last_gear].
  - rewrite I3. destruct (Nat.eqb_spec (vlen v) (r_na r)) as [E|E]; cbn [after].
    + apply (IH F2). unfold robot_ok, with_Md, update_Md. cbn [r_nv r_na r_rotor r_gear r_Md r_M vlen vget]. repeat split; try assumption; try reflexivity. intros i Hi. rewrite I8 by exact Hi. cbn [Rnum nmul car]. rring.
    + apply (IH F2). repeat split; assumption.
  - rewrite I4. destruct (Nat.eqb_spec (vlen v) (r_na r)) as [E|E]; cbn [after].
    + apply (IH F2). unfold robot_ok, with_Md, update_Md. cbn [r_nv r_na r_rotor r_gear r_Md r_M vlen vget]. repeat split; try assumption; try reflexivity. intros i Hi. rewrite I7 by exact Hi. cbn [Rnum nmul car]. rring.
    + apply (IH F2). repeat split; assumption.
  - destruct F1 as [R1 R2]. rewrite R1, R2, Nat.min_id, I5, Nat.eqb_refl. assert (L : (r_na r <=? r_nv r) = true) by (apply Nat.leb_le; exact I6). rewrite L. cbn [andb after]. apply (IH F2). repeat split; assumption.
Qed.
Lemma robot_new_ok c nv r : robot_new c nv = Some r -> robot_ok nv (joints c nv) (fun _ => 0%R) (fun _ => 0%R) r.
Proof.
  unfold robot_new. rewrite joints_code. destruct (fixed_base c || (6 <=? nv)) eqn:G; [|discriminate]. cbn [guard obind]. intros E. injection E as <-. unfold robot_ok. cbn. repeat split; try reflexivity; [destruct (fixed_base c); lia|]. intros. ring.
Qed.
(** What mass() returns after any calls at all. *)
Theorem mass_exact c nv r0 ops (D : mat Rnum) : robot_new c nv = Some r0 -> Forall (mass_ok nv) ops -> square nv D ->
  let na := joints c nv in let rotor := last_rotor na (fun _ => 0%R) ops in let gear := last_gear na (fun _ => 0%R) ops in
  exists r r' M, run robot_step r0 ops = Some r /\ robot_step r (RMass D) = Ret r' (Some M) /\ square nv M /\
    forall i j, i < nv -> j < nv -> mget M i j = (mget D i j + if (i =? j) && (nv - na <=? i) then gear (i - (nv - na))%nat * gear (i - (nv - na))%nat * rotor (i - (nv - na))%nat else 0)%R.
Proof.
  intros N F [S1 S2] na rotor gear. destruct (robot_run nv na ops F _ _ r0 (robot_new_ok c nv r0 N)) as (r & E & I1 & I2 & I3 & I4 & I5 & I6 & I7 & I8 & I9).
  assert (L : (na <=? nv) = true) by (apply Nat.leb_le; exact I6). exists r. do 2 eexists. split; [exact E|]. split.
  { cbn [robot_step]. rewrite S1, S2, Nat.min_id, I2, I5, L, Nat.eqb_refl. cbn [andb]. reflexivity. }
  split; [split; reflexivity|]. intros i j Hi Hj. cbn [mget]. apply Nat.ltb_lt in Hi as Hi'. rewrite Hi', andb_true_r. destruct ((i =? j) && (nv - na <=? i)) eqn:G.
  - apply andb_prop in G as [_ G]. apply Nat.leb_le in G. rewrite I9 by lia. reflexivity.
  - symmetry; apply Rplus_0_r.
Qed.
(** A setter of the wrong size changes nothing, and mass() does not depend on earlier
    calls of mass(). *)
Theorem rotor_rejected (r : rrobot) v : vlen v <> vlen (r_rotor r) -> robot_step r (RRotor v) = Exc r.
Proof. intros H. cbn [robot_step]. apply Nat.eqb_neq in H. rewrite H. reflexivity. Qed.
Theorem gear_rejected (r : rrobot) v : vlen v <> vlen (r_gear r) -> robot_step r (RGear v) = Exc r.
Proof. intros H. cbn [robot_step]. apply Nat.eqb_neq in H. rewrite H. reflexivity. Qed.
(** Positive definiteness. *)
Definition qform (n : nat) (M : nat -> nat -> R) (x : nat -> R) : R := rsum n (fun i => x i * rsum n (fun j => M i j * x j))%R.
Definition symm (n : nat) (M : nat -> nat -> R) : Prop := forall i j, i < n -> j < n -> M i j = M j i.
Definition posdef (n : nat) (M : nat -> nat -> R) : Prop := forall x, (exists i, i < n /\ x i <> 0%R) -> (0 < qform n M x)%R.
Lemma qform_diag n D (e : nat -> R) x : qform n (fun i j => D i j + if i =? j then e i else 0)%R x = (qform n D x + rsum n (fun i => e i * (x i * x i)))%R.
Proof.
  unfold qform. rewrite <- rsum_plus. apply rsum_ext. intros i Hi.
  assert (X : rsum n (fun j => (D i j + (if i =? j then e i else 0)) * x j)%R = (rsum n (fun j => D i j * x j) + e i * x i)%R).
  { transitivity (rsum n (fun j => D i j * x j + (if i =? j then e i else 0) * x j)%R); [apply rsum_ext; intros; ring|]. rewrite rsum_plus. f_equal. rewrite (rsum_single n i).
    - rewrite Nat.eqb_refl. reflexivity.
    - exact Hi.
    - intros j Hj Hne. destruct (Nat.eqb_spec i j); [congruence|ring]. }
  rewrite X. ring.
Qed.
Theorem mass_posdef c nv r0 ops (D : mat Rnum) : robot_new c nv = Some r0 -> Forall (mass_ok nv) ops -> square nv D -> symm nv (mget D) -> posdef nv (mget D) ->
  (forall i, i < joints c nv -> (0 <= last_rotor (joints c nv) (fun _ => 0%R) ops i)%R) ->
  exists r r' M, run robot_step r0 ops = Some r /\ robot_step r (RMass D) = Ret r' (Some M) /\ symm nv (mget M) /\ posdef nv (mget M).
Proof.
  intros N F S HS HP HR. destruct (mass_exact c nv r0 ops D N F S) as (r & r' & M & E1 & E2 & _ & HM). exists r, r', M. split; [exact E1|]. split; [exact E2|].
  set (na := joints c nv) in *. set (rotor := last_rotor na (fun _ => 0%R) ops) in *. set (gear := last_gear na (fun _ => 0%R) ops) in *. split.
  - intros i j Hi Hj. rewrite !HM by assumption. rewrite (HS i j Hi Hj). rewrite (Nat.eqb_sym i j). destruct (Nat.eqb_spec j i) as [->|]; reflexivity.
  - intros x Hx. set (e := fun i => if nv - na <=? i then (gear (i - (nv - na))%nat * gear (i - (nv - na))%nat * rotor (i - (nv - na))%nat)%R else 0%R).
    assert (Q : qform nv (mget M) x = (qform nv (mget D) x + rsum nv (fun i => e i * (x i * x i)))%R).
    { rewrite <- qform_diag. unfold qform. apply rsum_ext. intros i Hi. f_equal. apply rsum_ext. intros j Hj. rewrite HM by assumption. unfold e. destruct (i =? j); cbn [andb]; [destruct (nv - na <=? i)|]; reflexivity. }
    rewrite Q. assert (P1 := HP x Hx). assert (P2 : (0 <= rsum nv (fun i => e i * (x i * x i)))%R).
    { apply rsum_nonneg. intros i Hi. unfold e. destruct (Nat.leb_spec (nv - na) i); [|lra]. apply Rmult_le_pos; [|apply Rle_0_sqr]. apply Rmult_le_pos; [apply Rle_0_sqr|]. apply HR. assert (na <= nv) by (unfold na, joints; destruct c; lia). lia. }
    lra.
Qed.
(** computeAllTerms makes any matrix symmetric and keeps its upper triangle. *)
Theorem symmetrise_symm n (M : mat Rnum) : symm n (mget (symmetrise M)) /\ forall i j, i <= j -> mget (symmetrise M) i j = mget M i j.
Proof.
  split.
  - intros i j _ _. cbn [symmetrise mget]. destruct (Nat.ltb_spec i j), (Nat.ltb_spec j i); try reflexivity; try lia. replace j with i by lia. reflexivity.
  - intros i j H. cbn [symmetrise mget]. apply Nat.ltb_ge in H. rewrite H. reflexivity.
Qed.

(** * Kinematics *)
Notation v3 := (nat -> R).
Definition dot_ (a b : v3) : R := (a 0%nat * b 0%nat + a 1%nat * b 1%nat + a 2%nat * b 2%nat)%R.
Definition mv (Q : nat -> nat -> R) (x : v3) : v3 := fun i => dot_ (Q i) x.
Definition cr (a b : v3) : v3 := fun i => match i with 0 => a 1%nat * b 2%nat - a 2%nat * b 1%nat | 1 => a 2%nat * b 0%nat - a 0%nat * b 2%nat | _ => a 0%nat * b 1%nat - a 1%nat * b 0%nat end%R.
Definition det3 (Q : nat -> nat -> R) : R := dot_ (Q 0) (cr (Q 1) (Q 2)).
(** Orthonormal rows, determinant 1. *)
Definition rotation (Q : nat -> nat -> R) : Prop := (forall i j, i < 3 -> j < 3 -> dot_ (Q i) (Q j) = if i =? j then 1%R else 0%R) /\ det3 Q = 1%R.
Lemma rsum3' (f : nat -> R) : rsum 3 f = (f 0%nat + f 1%nat + f 2%nat)%R.
Proof. rewrite !rsum_S, rsum_0. lra. Qed.
Lemma app3_mv Q x i : @app3 Rnum Q x i = mv Q x i.
Proof. unfold app3. cbn [Rnum nmul car]. rewrite rsum3'. reflexivity. Qed.
Lemma tapp3_mv Q x i : @tapp3 Rnum Q x i = mv (fun a b => Q b a) x i.
Proof. unfold tapp3. cbn [Rnum nmul car]. rewrite rsum3'. reflexivity. Qed.
Lemma crossf_cr a b i : @crossf Rnum a b i = cr a b i.
Proof. destruct i as [|[|i]]; reflexivity. Qed.
(** The rows of a rotation are a right-handed frame. *)
Lemma rotation_cross Q : rotation Q -> forall j, j < 3 -> cr (Q 1) (Q 2) j = Q 0 j /\ cr (Q 2) (Q 0) j = Q 1 j /\ cr (Q 0) (Q 1) j = Q 2 j.
Proof.
  intros [O D]. assert (O00 := O 0 0 ltac:(lia) ltac:(lia)). assert (O01 := O 0 1 ltac:(lia) ltac:(lia)). assert (O02 := O 0 2 ltac:(lia) ltac:(lia)).
  assert (O11 := O 1 1 ltac:(lia) ltac:(lia)). assert (O12 := O 1 2 ltac:(lia) ltac:(lia)). assert (O22 := O 2 2 ltac:(lia) ltac:(lia)). cbn [Nat.eqb] in *.
  (* |x - y|^2 = 0 for x the cross product and y the row *)
  assert (SQ : forall u v w : v3, dot_ u u = 1%R -> dot_ v v = 1%R -> dot_ w w = 1%R -> dot_ v w = 0%R -> dot_ u (cr v w) = 1%R -> forall j, j < 3 -> cr v w j = u j).
  { intros u v w U V W VW T. assert (L : dot_ (cr v w) (cr v w) = 1%R).
    { transitivity (dot_ v v * dot_ w w - dot_ v w * dot_ v w)%R; [unfold dot_, cr; ring|]. rewrite V, W, VW. ring. }
    assert (Z : ((cr v w 0%nat - u 0%nat) * (cr v w 0%nat - u 0%nat) + (cr v w 1%nat - u 1%nat) * (cr v w 1%nat - u 1%nat) + (cr v w 2%nat - u 2%nat) * (cr v w 2%nat - u 2%nat) = 0)%R).
    { transitivity (dot_ (cr v w) (cr v w) - 2 * dot_ u (cr v w) + dot_ u u)%R; [unfold dot_; ring|]. rewrite L, T, U. ring. }
    assert (P := fun k => Rle_0_sqr (cr v w k - u k)). unfold Rsqr in P. assert (P0 := P 0). assert (P1 := P 1). assert (P2 := P 2). clear P.
    assert (G : forall x : R, (x * x = 0)%R -> x = 0%R) by (intros x Hx; apply Rmult_integral in Hx as [Hx|Hx]; exact Hx).
    intros j Hj. apply Rminus_diag_uniq. apply G. destruct j as [|[|[|j]]]; [| | |lia]; lra. }
  intros j Hj. split; [|split]; apply SQ; try assumption.
  - rewrite <- O02. unfold dot_. ring.
  - rewrite <- D. unfold det3, dot_, cr. ring.
  - rewrite <- D. unfold det3, dot_, cr. ring.
Qed.
(** Q Q^T = 1, and Q maps cross products to cross products. *)
Lemma rotation_mtm Q x : rotation Q -> forall i, i < 3 -> mv Q (mv (fun a b => Q b a) x) i = x i.
Proof.
  intros [O D] i Hi. transitivity (dot_ (Q i) (Q 0%nat) * x 0%nat + dot_ (Q i) (Q 1%nat) * x 1%nat + dot_ (Q i) (Q 2%nat) * x 2%nat)%R; [unfold mv, dot_; ring|].
  rewrite !O by lia. destruct i as [|[|[|i]]]; [| | |lia]; cbn [Nat.eqb]; ring.
Qed.
Lemma rotation_cr Q a b : rotation Q -> forall i, i < 3 -> mv Q (cr a b) i = cr (mv Q a) (mv Q b) i.
Proof.
  intros H i Hi. assert (C := rotation_cross Q H).
  destruct (C 0 ltac:(lia)) as (A1 & A2 & A3). destruct (C 1 ltac:(lia)) as (B1 & B2 & B3). destruct (C 2 ltac:(lia)) as (C1 & C2 & C3).
  destruct i as [|[|[|i]]]; [| | |lia].
  - transitivity (dot_ (cr (Q 1%nat) (Q 2%nat)) (cr a b)); [unfold mv, dot_; rewrite A1, B1, C1; reflexivity|unfold mv, dot_, cr; ring].
  - transitivity (dot_ (cr (Q 2%nat) (Q 0%nat)) (cr a b)); [unfold mv, dot_; rewrite A2, B2, C2; reflexivity|unfold mv, dot_, cr; ring].
  - transitivity (dot_ (cr (Q 0%nat) (Q 1%nat)) (cr a b)); [unfold mv, dot_; rewrite A3, B3, C3; reflexivity|unfold mv, dot_, cr; ring].
Qed.
Lemma mv_ext Q x y i : (forall k, k < 3 -> x k = y k) -> mv Q x i = mv Q y i.
Proof. intros H. unfold mv, dot_. rewrite !H by lia. reflexivity. Qed.
Lemma mv_mul P Q x i : mv (@mul3 Rnum P Q) x i = mv P (mv Q x) i.
Proof. unfold mv, dot_, mul3. cbn [Rnum nmul car]. rewrite !rsum3'. ring. Qed.
Lemma mv_plus Q x y i : mv Q (fun k => x k + y k)%R i = (mv Q x i + mv Q y i)%R.
Proof. unfold mv, dot_. ring. Qed.

(** A joint moving in time: placement (Ro, po), body velocity (v, w), body acceleration
    (a, al): Ro' = Ro [w], po' = Ro v, v' = a, w' = al. *)
Record moves := mkMoves { z_R : R -> nat -> nat -> R; z_p : R -> v3; z_v : R -> v3; z_w : R -> v3; z_a : R -> v3; z_al : R -> v3 }.
Definition skew (w : v3) : nat -> nat -> R := fun i j => cr w (fun k => if k =? j then 1%R else 0%R) i.
Definition moving (z : moves) : Prop := forall t i, i < 3 ->
  derivable_pt_lim (fun u => z_p z u i) t (mv (z_R z t) (z_v z t) i) /\
  (forall j, j < 3 -> derivable_pt_lim (fun u => z_R z u i j) t (rsum 3 (fun k => z_R z t i k * skew (z_w z t) k j)%R)) /\
  derivable_pt_lim (fun u => z_v z u i) t (z_a z t i) /\ derivable_pt_lim (fun u => z_w z u i) t (z_al z t i).
(** The data of pinocchio hold this joint as number j, at every time. *)
Definition tracks (d : R -> data Rnum) (j : nat) (z : moves) : Prop := forall t,
  nth_error (d_oMi (d t)) j = Some (@mkSE3 Rnum (z_R z t) (z_p z t)) /\
  nth_error (d_v (d t)) j = Some (@mkMotion Rnum (z_v z t) (z_w z t)) /\
  nth_error (d_a (d t)) j = Some (@mkMotion Rnum (z_a z t) (z_al z t)).
(** The frame number idx is fixed to joint j with placement P. *)
Definition attached (m : model Rnum) (idx j : nat) (P : se3 Rnum) : Prop := nth_error (mo_frames m) idx = Some (j, P) /\ rotation (p_R P).
Definition zero3 : v3 := fun _ => 0%R.
Lemma cr_zero x i : cr zero3 x i = 0%R.
Proof. unfold cr, zero3. destruct i as [|[|i]]; ring. Qed.
Lemma dlim_ext f g t l : (forall u, f u = g u) -> derivable_pt_lim f t l -> derivable_pt_lim g t l.
Proof. intros E H eps He. destruct (H eps He) as (d & Hd). exists d. intros h H1 H2. rewrite <- !E. apply Hd; assumption. Qed.
Lemma dlim_eq f t l l' : l = l' -> derivable_pt_lim f t l -> derivable_pt_lim f t l'.
Proof. intros ->. exact (fun h => h). Qed.
Lemma dlim_plus f g t a b : derivable_pt_lim f t a -> derivable_pt_lim g t b -> derivable_pt_lim (fun u => f u + g u)%R t (a + b)%R.
Proof. intros. apply (derivable_pt_lim_plus f g); assumption. Qed.
Lemma dlim_minus f g t a b : derivable_pt_lim f t a -> derivable_pt_lim g t b -> derivable_pt_lim (fun u => f u - g u)%R t (a - b)%R.
Proof. intros. apply (derivable_pt_lim_minus f g); assumption. Qed.
Lemma dlim_mult f g t a b : derivable_pt_lim f t a -> derivable_pt_lim g t b -> derivable_pt_lim (fun u => f u * g u)%R t (a * g t + f t * b)%R.
Proof. intros. apply (derivable_pt_lim_mult f g); assumption. Qed.
Lemma dlim_const c t : derivable_pt_lim (fun _ => c) t 0%R.
Proof. apply derivable_pt_lim_const. Qed.
Lemma dlim_scal f t a c : derivable_pt_lim f t a -> derivable_pt_lim (fun u => f u * c)%R t (a * c)%R.
Proof. intros H. apply dlim_eq with (l := (a * c + f t * 0)%R); [ring|]. apply (dlim_mult f (fun _ => c)); [exact H|apply dlim_const]. Qed.
(** d/dt (Ro x) = Ro (w x x + x'). *)
Lemma moving_mv z (x : R -> v3) (x' : v3) t i : moving z -> i < 3 -> (forall k, k < 3 -> derivable_pt_lim (fun u => x u k) t (x' k)) ->
  derivable_pt_lim (fun u => mv (z_R z u) (x u) i) t (mv (z_R z t) (fun k => cr (z_w z t) (x t) k + x' k)%R i).
Proof.
  intros M Hi Hx. destruct (M t i Hi) as (_ & HR & _). unfold mv at 1, dot_.
  eapply dlim_eq; [|apply dlim_plus; [apply dlim_plus|]; apply dlim_mult; try (apply HR; lia); apply Hx; lia].
  rewrite !rsum3'. unfold mv, dot_, skew, cr. cbn [Nat.eqb]. ring.
Qed.
(** The world-oriented velocity is the time derivative of the frame position, if the
    translation nobody set is zero. *)
Lemma velocity_world_value (junk : v3) m d idx j z P t : tracks d j z -> attached m idx j P ->
  frame_velocity_world (K := Rnum) junk m (d t) idx = Ret tt (mot_act (@mkSE3 Rnum (@mul3 Rnum (z_R z t) (p_R P)) junk) (mot_act_inv P (@mkMotion Rnum (z_v z t) (z_w z t)))).
Proof.
  intros T [F _]. destruct (T t) as (T1 & T2 & T3). unfold frame_velocity_world, world_oriented, frame_velocity, frame_position, frame_of. rewrite F, T1, T2. reflexivity.
Qed.
Lemma classic_world_value (junk : v3) m d idx j z P t : tracks d j z -> attached m idx j P ->
  frame_classic_world (K := Rnum) junk m (d t) idx = Ret tt (mot_act (@mkSE3 Rnum (@mul3 Rnum (z_R z t) (p_R P)) junk) (classic (mot_act_inv P (@mkMotion Rnum (z_a z t) (z_al z t))) (mot_act_inv P (@mkMotion Rnum (z_v z t) (z_w z t))))).
Proof.
  intros T [F _]. destruct (T t) as (T1 & T2 & T3). unfold frame_classic_world, world_oriented, frame_classic, frame_position, frame_of. rewrite F, T1, T2, T3. reflexivity.
Qed.
Lemma rotated_velocity (P : se3 Rnum) Ro (v w : v3) i : rotation (p_R P) -> i < 3 ->
  mv (@mul3 Rnum Ro (p_R P)) (@tapp3 Rnum (p_R P) (fun k => @nsub Rnum (v k) (@crossf Rnum (p_p P) w k))) i = mv Ro (fun k => v k + cr w (p_p P) k)%R i.
Proof.
  intros HP Hi. rewrite mv_mul. apply mv_ext. intros k Hk. transitivity (mv (p_R P) (mv (fun a b => p_R P b a) (fun k => v k + cr w (p_p P) k)%R) k); [|apply rotation_mtm; assumption].
  apply mv_ext. intros q Hq. rewrite tapp3_mv. apply mv_ext. intros r Hr. rewrite crossf_cr. cbn [Rnum nsub car]. destruct r as [|[|[|r]]]; [| | |lia]; unfold cr; rring.
Qed.
Lemma rotated_angular (P : se3 Rnum) Ro (w : v3) i : rotation (p_R P) -> i < 3 -> mv (@mul3 Rnum Ro (p_R P)) (@tapp3 Rnum (p_R P) w) i = mv Ro w i.
Proof.
  intros HP Hi. rewrite mv_mul. apply mv_ext. intros k Hk. transitivity (mv (p_R P) (mv (fun a b => p_R P b a) w) k); [|apply rotation_mtm; assumption]. apply mv_ext. intros q Hq. apply tapp3_mv.
Qed.
Definition position_of (m : model Rnum) (idx : nat) (d : data Rnum) (i : nat) : R := match frame_position m d idx with Ret _ F => p_p F i | _ => 0%R end.
Lemma position_value m d idx j z P t i : tracks d j z -> attached m idx j P -> position_of m idx (d t) i = (mv (z_R z t) (p_p P) i + z_p z t i)%R.
Proof.
  intros T [F _]. destruct (T t) as (T1 & _). unfold position_of, frame_position, frame_of. rewrite F, T1. cbn [obind se3_act p_p p_R]. rewrite app3_mv. reflexivity.
Qed.
(** In the following [junk] is the translation nobody sets. *)
Theorem velocity_world z (P : se3 Rnum) (junk : v3) m d idx j t : moving z -> tracks d j z -> attached m idx j P ->
  exists x, frame_velocity_world (K := Rnum) junk m (d t) idx = Ret tt x /\
    (forall i, i < 3 -> m_ang x i = mv (z_R z t) (z_w z t) i) /\
    forall i, i < 3 -> derivable_pt_lim (fun u => position_of m idx (d u) i) t (m_lin x i - cr junk (mv (z_R z t) (z_w z t)) i)%R.
Proof.
  intros M T A0. assert (HP := proj2 A0). eexists. split; [eapply velocity_world_value; eassumption|]. cbn [mot_act mot_act_inv m_lin m_ang p_R p_p].
  assert (A : forall i, i < 3 -> @app3 Rnum (@mul3 Rnum (z_R z t) (p_R P)) (@tapp3 Rnum (p_R P) (z_w z t)) i = mv (z_R z t) (z_w z t) i) by (intros i Hi; rewrite app3_mv; apply rotated_angular; assumption).
  split; [exact A|]. intros i Hi.
  eapply dlim_ext; [intros u; symmetry; eapply position_value; eassumption|]. destruct (M t i Hi) as (Hp & _).
  eapply dlim_eq; [|apply dlim_plus; [apply (moving_mv z (fun _ => p_p P) zero3 t i M Hi); intros; apply dlim_const|exact Hp]].
  rewrite app3_mv, crossf_cr. assert (X := rotated_velocity P (z_R z t) (z_v z t) (z_w z t) i HP Hi). cbn [Rnum nsub nadd car] in *. rewrite X.
  assert (Y : cr junk (@app3 Rnum (@mul3 Rnum (z_R z t) (p_R P)) (@tapp3 Rnum (p_R P) (z_w z t))) i = cr junk (mv (z_R z t) (z_w z t)) i) by (unfold cr; rewrite !A by lia; reflexivity).
  rewrite Y. unfold mv, dot_, zero3. ring.
Qed.
Definition linear_of (x : outcome unit (motion Rnum)) (i : nat) : R := match x with Ret _ m => m_lin m i | _ => 0%R end.
(** Classic acceleration: second derivative of the position. *)
Theorem classic_world z (P : se3 Rnum) (junk : v3) m d idx j t : moving z -> tracks d j z -> attached m idx j P ->
  exists x, frame_classic_world (K := Rnum) junk m (d t) idx = Ret tt x /\
    (forall i, i < 3 -> m_ang x i = mv (z_R z t) (z_al z t) i) /\
    exists v : R -> v3, (forall u i, i < 3 -> derivable_pt_lim (fun u => position_of m idx (d u) i) u (v u i)) /\
      forall i, i < 3 -> derivable_pt_lim (fun u => v u i) t (m_lin x i - cr junk (mv (z_R z t) (z_al z t)) i)%R.
Proof.
  intros M T A0. assert (HP := proj2 A0). eexists. split; [eapply classic_world_value; eassumption|]. cbn [mot_act classic mot_act_inv m_lin m_ang p_R p_p].
  assert (A : forall w i, i < 3 -> @app3 Rnum (@mul3 Rnum (z_R z t) (p_R P)) (@tapp3 Rnum (p_R P) w) i = mv (z_R z t) w i) by (intros w i Hi; rewrite app3_mv; apply rotated_angular; assumption).
  split; [intros i Hi; apply A; exact Hi|].
  exists (fun u => linear_of (frame_velocity_world (K := Rnum) zero3 m (d u) idx)). split.
  { intros u i Hi. destruct (velocity_world z P zero3 m d idx j u M T A0) as (y & Ey & _ & Hy). eapply dlim_eq; [|apply (Hy i Hi)]. rewrite Ey, cr_zero. cbn [linear_of]. apply Rminus_0_r. }
  intros i Hi. set (x := fun u k => (z_v z u k + cr (z_w z u) (p_p P) k)%R). set (x' := fun k => (z_a z t k + cr (z_al z t) (p_p P) k)%R).
  apply dlim_ext with (f := fun u => mv (z_R z u) (x u) i).
  { intros u. rewrite (velocity_world_value zero3 m d idx j z P u T A0). cbn [linear_of mot_act mot_act_inv m_lin m_ang p_R p_p]. rewrite app3_mv, crossf_cr. assert (X := rotated_velocity P (z_R z u) (z_v z u) (z_w z u) i HP Hi). cbn [Rnum nsub nadd car] in *. rewrite X, cr_zero. unfold x. symmetry. apply Rplus_0_r. }
  eapply dlim_eq; [|apply (moving_mv z x x' t i M Hi)].
  - rewrite (crossf_cr junk). cbn [Rnum nadd nsub car].
    assert (Y : cr junk (@app3 Rnum (@mul3 Rnum (z_R z t) (p_R P)) (@tapp3 Rnum (p_R P) (z_al z t))) i = cr junk (mv (z_R z t) (z_al z t)) i) by (unfold cr; rewrite !A by lia; reflexivity).
    cbn [se3_act p_R]. rewrite Y, app3_mv, (mv_plus _ (@tapp3 Rnum (p_R P) (fun k => z_a z t k - @crossf Rnum (p_p P) (z_al z t) k)%R) (@crossf Rnum (@tapp3 Rnum (p_R P) (z_w z t)) (@tapp3 Rnum (p_R P) (fun k => z_v z t k - @crossf Rnum (p_p P) (z_w z t) k)%R))). assert (X := rotated_velocity P (z_R z t) (z_a z t) (z_al z t) i HP Hi). cbn [Rnum nsub nadd car] in X. rewrite X.
    assert (Z : mv (@mul3 Rnum (z_R z t) (p_R P)) (@crossf Rnum (@tapp3 Rnum (p_R P) (z_w z t)) (@tapp3 Rnum (p_R P) (fun k => z_v z t k - @crossf Rnum (p_p P) (z_w z t) k)%R)) i = mv (z_R z t) (cr (z_w z t) (x t)) i).
    { rewrite mv_mul. apply mv_ext. intros k Hk. transitivity (mv (p_R P) (cr (@tapp3 Rnum (p_R P) (z_w z t)) (@tapp3 Rnum (p_R P) (fun k => z_v z t k - @crossf Rnum (p_p P) (z_w z t) k)%R)) k); [apply mv_ext; intros; apply crossf_cr|].
      rewrite rotation_cr by assumption.
      assert (W1 : forall q, q < 3 -> mv (p_R P) (@tapp3 Rnum (p_R P) (z_w z t)) q = z_w z t q) by (intros q Hq; transitivity (mv (p_R P) (mv (fun a b => p_R P b a) (z_w z t)) q); [apply mv_ext; intros; apply tapp3_mv|apply rotation_mtm; assumption]).
      assert (W2 : forall q, q < 3 -> mv (p_R P) (@tapp3 Rnum (p_R P) (fun k => z_v z t k - @crossf Rnum (p_p P) (z_w z t) k)%R) q = x t q).
      { intros q Hq. transitivity (mv (p_R P) (mv (fun a b => p_R P b a) (x t)) q); [|apply rotation_mtm; assumption]. apply mv_ext. intros r Hr. rewrite tapp3_mv. apply mv_ext. intros s Hs. rewrite crossf_cr. unfold x. destruct s as [|[|[|s]]]; [| | |lia]; unfold cr; ring. }
      unfold cr. rewrite !W1, !W2 by lia. reflexivity. }
    rewrite Z. rewrite (mv_plus (z_R z t) (cr (z_w z t) (x t)) x'). unfold x'. ring.
  - intros k Hk. unfold x, x'. destruct (M t k Hk) as (_ & _ & Hv & _). apply dlim_plus; [exact Hv|].
    assert (HW : forall q, q < 3 -> derivable_pt_lim (fun u => z_w z u q) t (z_al z t q)) by (intros q Hq; apply (M t q Hq)).
    destruct k as [|[|[|k]]]; [| | |lia]; cbn [cr]; apply dlim_minus; apply dlim_scal; apply HW; lia.
Qed.

(** The spatial acceleration: p'' - w x p' in world axes. *)
Lemma rotated_cross (P : se3 Rnum) Ro (v w : v3) i : rotation (p_R P) -> i < 3 ->
  mv (@mul3 Rnum Ro (p_R P)) (@crossf Rnum (@tapp3 Rnum (p_R P) w) (@tapp3 Rnum (p_R P) (fun k => v k - @crossf Rnum (p_p P) w k)%R)) i = mv Ro (cr w (fun k => v k + cr w (p_p P) k)%R) i.
Proof.
  intros HP Hi. rewrite mv_mul. apply mv_ext. intros k Hk. transitivity (mv (p_R P) (cr (@tapp3 Rnum (p_R P) w) (@tapp3 Rnum (p_R P) (fun k => v k - @crossf Rnum (p_p P) w k)%R)) k); [apply mv_ext; intros; apply crossf_cr|].
  rewrite rotation_cr by assumption.
  assert (W1 : forall q, q < 3 -> mv (p_R P) (@tapp3 Rnum (p_R P) w) q = w q) by (intros q Hq; transitivity (mv (p_R P) (mv (fun a b => p_R P b a) w) q); [apply mv_ext; intros; apply tapp3_mv|apply rotation_mtm; assumption]).
  assert (W2 : forall q, q < 3 -> mv (p_R P) (@tapp3 Rnum (p_R P) (fun k => v k - @crossf Rnum (p_p P) w k)%R) q = (v q + cr w (p_p P) q)%R).
  { intros q Hq. transitivity (mv (p_R P) (mv (fun a b => p_R P b a) (fun k => v k + cr w (p_p P) k)%R) q); [|apply rotation_mtm; assumption]. apply mv_ext. intros r Hr. rewrite tapp3_mv. apply mv_ext. intros s Hs. rewrite crossf_cr. destruct s as [|[|[|s]]]; [| | |lia]; unfold cr; ring. }
  unfold cr. rewrite !W1, !W2 by lia. unfold cr. reflexivity.
Qed.
Theorem acceleration_world z (P : se3 Rnum) (junk : v3) m d idx j t : moving z -> tracks d j z -> attached m idx j P -> rotation (z_R z t) ->
  exists x, frame_acceleration_world (K := Rnum) junk m (d t) idx = Ret tt x /\
    (forall i, i < 3 -> m_ang x i = mv (z_R z t) (z_al z t) i) /\
    exists v : R -> v3, (forall u i, i < 3 -> derivable_pt_lim (fun u => position_of m idx (d u) i) u (v u i)) /\
      forall i, i < 3 -> derivable_pt_lim (fun u => v u i) t (m_lin x i - cr junk (mv (z_R z t) (z_al z t)) i + cr (mv (z_R z t) (z_w z t)) (v t) i)%R.
Proof.
  intros M T A0 HR. assert (HP := proj2 A0). destruct (T t) as (T1 & T2 & T3).
  destruct (classic_world z P junk m d idx j t M T A0) as (xc & Ec & _ & v & Hv & Hc). rewrite (classic_world_value junk m d idx j z P t T A0) in Ec. injection Ec as <-.
  eexists. split.
  { unfold frame_acceleration_world, world_oriented, frame_acceleration, frame_position, frame_of. rewrite (proj1 A0), T1, T3. reflexivity. }
  cbn [mot_act mot_act_inv m_lin m_ang p_R p_p se3_act]. split; [intros i Hi; rewrite app3_mv; apply rotated_angular; assumption|]. exists v. split; [exact Hv|]. intros i Hi.
  eapply dlim_eq; [|apply (Hc i Hi)]. cbn [mot_act classic mot_act_inv m_lin m_ang p_R p_p]. rewrite !app3_mv.
  rewrite (mv_plus _ (@tapp3 Rnum (p_R P) (fun k => z_a z t k - @crossf Rnum (p_p P) (z_al z t) k)%R) (@crossf Rnum (@tapp3 Rnum (p_R P) (z_w z t)) (@tapp3 Rnum (p_R P) (fun k => z_v z t k - @crossf Rnum (p_p P) (z_w z t) k)%R))).
  rewrite (rotated_cross P (z_R z t) (z_v z t) (z_w z t) i HP Hi), rotation_cr by assumption.
  assert (V : forall q, q < 3 -> v t q = mv (z_R z t) (fun k => z_v z t k + cr (z_w z t) (p_p P) k)%R q).
  { intros q Hq. apply (uniqueness_limite _ _ _ _ (Hv t q Hq)). destruct (velocity_world z P zero3 m d idx j t M T A0) as (y & Ey & _ & Hy). eapply dlim_eq; [|apply (Hy q Hq)]. rewrite (velocity_world_value zero3 m d idx j z P t T A0) in Ey. injection Ey as <-.
    cbn [mot_act mot_act_inv m_lin m_ang p_R p_p]. rewrite app3_mv, crossf_cr, !cr_zero. assert (X := rotated_velocity P (z_R z t) (z_v z t) (z_w z t) q HP Hq). cbn [Rnum nsub nadd car] in *. rewrite X. ring. }
  assert (C : cr (mv (z_R z t) (z_w z t)) (v t) i = cr (mv (z_R z t) (z_w z t)) (mv (z_R z t) (fun k => z_v z t k + cr (z_w z t) (p_p P) k)%R) i) by (unfold cr at 1 3; rewrite !V by lia; reflexivity).
  rewrite C. cbn [Rnum nadd nsub car]. ring.
Qed.
(** A frame that the model does not have. *)
Theorem frame_unknown (m : model Rnum) (d : data Rnum) idx junk : nth_error (mo_frames m) idx = None ->
  frame_position m d idx = Exc tt /\ frame_velocity m d idx = Exc tt /\ frame_acceleration m d idx = Exc tt /\ frame_classic m d idx = Exc tt /\
  frame_velocity_world junk m d idx = Exc tt /\ frame_acceleration_world junk m d idx = Exc tt /\ frame_classic_world junk m d idx = Exc tt.
Proof.
  intros H. unfold frame_velocity_world, frame_acceleration_world, frame_classic_world, world_oriented, frame_position, frame_velocity, frame_acceleration, frame_classic, frame_of. rewrite H. repeat split; reflexivity.
Qed.

(** * The translation that is not set *)
(** A joint turning about z. *)
Definition turning : moves :=
  mkMoves (fun t i j => match i, j with 0, 0 => cos t | 0, 1 => (- sin t)%R | 1, 0 => sin t | 1, 1 => cos t | 2, 2 => 1%R | _, _ => 0%R end)
    (fun _ _ => 0%R) (fun _ _ => 0%R) (fun _ i => if i =? 2 then 1%R else 0%R) (fun _ _ => 0%R) (fun _ _ => 0%R).
Lemma turning_moves : moving turning.
Proof.
  intros t i Hi. cbn [turning z_R z_p z_v z_w z_a z_al].
  assert (C : forall c : R, derivable_pt_lim (fun _ => c) t 0%R) by (intros; apply dlim_const).
  split; [|split; [|split]].
  - eapply dlim_eq; [|apply C]. unfold mv, dot_. ring.
  - intros j Hj. rewrite rsum3'. unfold skew, cr. destruct i as [|[|[|i]]]; [| | |lia]; (destruct j as [|[|[|j]]]; [| | |lia]); cbn [Nat.eqb].
    + eapply dlim_eq; [|apply derivable_pt_lim_cos]. ring.
    + eapply dlim_eq; [|apply (derivable_pt_lim_opp sin); apply derivable_pt_lim_sin]. ring.
    + eapply dlim_eq; [|apply C]. ring.
    + eapply dlim_eq; [|apply derivable_pt_lim_sin]. ring.
    + eapply dlim_eq; [|apply derivable_pt_lim_cos]. ring.
    + eapply dlim_eq; [|apply C]. ring.
    + eapply dlim_eq; [|apply C]. ring.
    + eapply dlim_eq; [|apply C]. ring.
    + eapply dlim_eq; [|apply C]. ring.
  - apply C.
  - destruct (i =? 2); apply C.
Qed.
Definition one_frame (P : se3 Rnum) : model Rnum := mkModel [(0, P)].
Definition joint_data (z : moves) (t : R) : data Rnum :=
  mkData [@mkSE3 Rnum (z_R z t) (z_p z t)] [@mkMotion Rnum (z_v z t) (z_w z t)] [@mkMotion Rnum (z_a z t) (z_al z t)].
Lemma joint_tracks z : tracks (joint_data z) 0 z.
Proof. intros t. repeat split; reflexivity. Qed.
Definition unit_rot (i j : nat) : R := if i =? j then 1%R else 0%R.
Lemma unit_rotation : rotation unit_rot.
Proof.
  split.
  - intros i j Hi Hj. destruct i as [|[|[|i]]]; [| | |lia]; (destruct j as [|[|[|j]]]; [| | |lia]); unfold dot_, unit_rot; cbn [Nat.eqb]; ring.
  - unfold det3, dot_, cr, unit_rot. cbn [Nat.eqb]. ring.
Qed.
Definition ex_place : se3 Rnum := @mkSE3 Rnum unit_rot (fun i => if i =? 0 then 1%R else 0%R).
Lemma ex_attached : attached (one_frame ex_place) 0 0 ex_place.
Proof. split; [reflexivity|exact unit_rotation]. Qed.
(** With another translation the result is not the velocity. *)
Theorem velocity_world_refuted : ~ forall z P (junk : v3) m d idx j t, moving z -> tracks d j z -> attached m idx j P ->
  exists x, frame_velocity_world (K := Rnum) junk m (d t) idx = Ret tt x /\ forall i, i < 3 -> derivable_pt_lim (fun u => position_of m idx (d u) i) t (m_lin x i).
Proof.
  intros H. set (junk := fun i : nat => if i =? 0 then 1%R else 0%R).
  destruct (H turning ex_place junk (one_frame ex_place) (joint_data turning) 0 0 0%R turning_moves (joint_tracks turning) ex_attached) as (x & E & D).
  destruct (velocity_world turning ex_place junk (one_frame ex_place) (joint_data turning) 0 0 0%R turning_moves (joint_tracks turning) ex_attached) as (y & E' & _ & D').
  assert (X : x = y) by congruence. subst y. assert (U := uniqueness_limite _ _ _ _ (D 1 ltac:(lia)) (D' 1 ltac:(lia))).
  unfold cr, mv, dot_, junk, turning in U. cbn [z_R z_w Nat.eqb] in U. rewrite cos_0, sin_0 in U. lra.
Qed.
(** A negative rotor inertia is accepted and can make the mass matrix indefinite. *)
Theorem mass_refuted : ~ forall c nv r0 ops (D : mat Rnum), robot_new c nv = Some r0 -> Forall (mass_ok nv) ops -> square nv D -> symm nv (mget D) -> posdef nv (mget D) ->
  exists r r' M, run robot_step r0 ops = Some r /\ robot_step r (RMass D) = Ret r' (Some M) /\ posdef nv (mget M).
Proof.
  intros H. set (ops := [RRotor (@mkVec Rnum 1 (fun _ => (-2)%R)); RGear (@mkVec Rnum 1 (fun _ => 1%R))]). set (D := @mkMat Rnum 1 1 (fun _ _ => 1%R)).
  assert (F : Forall (mass_ok 1) ops) by (repeat constructor). assert (S : square 1 D) by (split; reflexivity).
  assert (PD : posdef 1 (mget D)). { intros x (i & Hi & Hx). replace i with 0 in Hx by lia. unfold qform, D. cbn [mget]. rewrite !rsum_S, !rsum_0. assert (0 < x 0%nat * x 0%nat)%R by (apply Rsqr_pos_lt; exact Hx). lra. }
  destruct (H CUrdf 1 _ ops D eq_refl F S ltac:(intros i j _ _; reflexivity) PD) as (r & r' & M & E1 & E2 & PM).
  destruct (mass_exact CUrdf 1 _ ops D eq_refl F S) as (s & s' & M' & E1' & E2' & _ & HM). assert (X : r = s) by congruence. subst s. assert (Y : M = M') by congruence. subst M'.
  specialize (PM (fun _ => 1%R) ltac:(exists 0; split; [lia|lra])). unfold qform in PM. rewrite !rsum_S, !rsum_0, HM in PM by lia. cbn in PM. lra.
Qed.
