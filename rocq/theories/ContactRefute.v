(** Concrete contacts and counterexamples. *)
From Coq Require Import String List Arith Bool QArith Reals Qreals Lia Lra.
From Verif Require Import Scalar Outcome Linalg Constraint FormPhysSpec RSum Contacts ContactSpec ContactProofs ContactReal ContactWrench.
Import ListNotations.
Open Scope string_scope.
Open Scope list_scope.
Open Scope nat_scope.

Section Build.
Context {K : num}.
Variable sq : K -> K.
(** A contact made by the constructor, any points, any normal. *)
Lemma build k dbg name (P : mat K) (n : vec K) mu fmin fmax : vlen n = 3 -> mrows P = 3 -> mcols P = 4 ->
  exists s, cont_new sq k dbg (fun _ _ => n0) name P n mu fmin fmax = Some s /\
    k_n s = n /\ k_mu s = mu /\ k_fmin s = fmin /\ k_fmax s = fmax /\ (k = K6 -> k_pts s = P) /\ made sq k dbg name s.
Proof.
  intros Hn Hr Hc.
  assert (X : exists s, cont_new sq k dbg (fun _ _ => n0) name P n mu fmin fmax = Some s /\
    k_n s = n /\ k_mu s = mu /\ k_fmin s = fmin /\ k_fmax s = fmax /\ (k = K6 -> k_pts s = P)).
  { unfold cont_new. rewrite Hn, Hr, Hc. destruct k, dbg; (eexists; split; [reflexivity|]); repeat split; intros; congruence. }
  destruct X as (s & E & X). exists s. split; [exact E|]. destruct X as (X1 & X2 & X3 & X4 & X5). repeat (split; [assumption|]).
  exists (fun _ _ => n0), P, n, mu, fmin, fmax, s. split; [exact E|apply reach_init].
Qed.
Lemma made_step k dbg name s o s' : made sq k dbg name s -> after (cstep sq k s o) = Some s' -> made sq k dbg name s'.
Proof.
  intros (jk & P & n & mu & fmin & fmax & s0 & H0 & Hr) E. exists jk, P, n, mu, fmin, fmax, s0. split; [exact H0|].
  eapply reach_step; [exact Hr|exact I|exact E].
Qed.
End Build.

Definition rv (a b c : R) : vec Rnum := @v3 Rnum a b c.
Definition square : mat Rnum :=
  @mkMat Rnum 3 4 (fun i j => match i, j with 0, 0 | 0, 1 | 1, 0 | 1, 2 => 1%R | 0, _ | 1, _ => (- 1)%R | _, _ => 0%R end).
Definition origin : mat Rnum := @mzero Rnum 3 4.

(** Valid contact with unit normal, on the ground. *)
Lemma ground k dbg name : exists s : rcont, made_valid rsq k dbg name s /\ k_n s = rv 0 0 1 /\
  k_mu s = (/ 2)%R /\ k_fmin s = 1%R /\ k_fmax s = 100%R /\ (k = K6 -> k_pts s = square).
Proof.
  destruct (build (rsq) k dbg name square (rv 0 0 1) (/ 2)%R 1%R 100%R eq_refl eq_refl eq_refl) as (s & E & N & M & A & B & P & _).
  exists s. split; [|auto]. exists (fun _ _ => n0), square, (rv 0 0 1), (/ 2)%R, 1%R, 100%R, s. split; [exact E|].
  split; [|apply reach_init]. unfold positive. rewrite M, A, B.
  repeat split; cbn [Rnum nltb nleb n0]; [apply Rltb_true|apply Rleb_true|apply Rltb_true]; lra.
Qed.
Lemma ground_pyramid k : k <> K2 -> forall t1 t2, frame (vget (rv 0 0 1)) t1 t2 ->
  friction_ok (npts k) (vget (rv 0 0 1)) t1 t2 (/ 2) 1 100 (fun i => if i mod 3 =? 2 then 2%R else 0%R).
Proof.
  intros Hk t1 t2 (_ & _ & _ & H1 & H2). unfold dot, rv, v3 in H1, H2. cbn [vget] in H1, H2.
  assert (Z1 : t1 2 = 0%R) by lra. assert (Z2 : t2 2 = 0%R) by lra.
  assert (G : forall i, i < npts k -> pyramid (vget (rv 0 0 1)) t1 t2 (/ 2) (at_point (fun i => if i mod 3 =? 2 then 2%R else 0%R) i) /\
     dot (vget (rv 0 0 1)) (at_point (fun i => if i mod 3 =? 2 then 2%R else 0%R) i) = 2%R).
  { intros i Hi. unfold pyramid, dot, at_point, rv, v3. cbn [vget].
    rewrite !(Nat.add_comm (3 * i)), !(Nat.mul_comm 3 i), !Nat.mod_add by lia.
    cbn [Nat.modulo Nat.divmod fst snd Nat.sub Nat.eqb]. rewrite Z1, Z2.
    replace (t1 0%nat * 0 + t1 1%nat * 0 + 0 * 2)%R with 0%R by ring. replace (t2 0%nat * 0 + t2 1%nat * 0 + 0 * 2)%R with 0%R by ring.
    rewrite Rabs_R0. lra. }
  split; [intros i Hi; apply G; exact Hi|]. unfold total_normal.
  rewrite (rsum_ext _ _ (fun _ => 2%R)) by (intros i Hi; apply G; exact Hi).
  destruct k; [| |congruence]; cbn [npts]; rewrite !rsum_S, rsum_0; lra.
Qed.

(** ** Tiny normals *)
Lemma plane_basis a b c d : (a * a + c * c = 1)%R -> (b * b + d * d = 1)%R -> (a * b + c * d = 0)%R -> (a * a + b * b = 1)%R.
Proof.
  intros H1 H2 H3. assert (E : (a * a * (b * b) = c * c * (d * d))%R).
  { replace (a * a * (b * b))%R with ((a * b) * (a * b))%R by ring. replace (a * b)%R with (- (c * d))%R by lra. ring. }
  replace (c * c)%R with (1 - a * a)%R in E by lra. replace (d * d)%R with (1 - b * b)%R in E by lra.
  assert ((1 - a * a) * (1 - b * b) = 1 - a * a - b * b + a * a * (b * b))%R by ring. lra.
Qed.
Lemma tiny_tangent (e : R) : (0 < e < / 100000)%R -> vget (tangent1 rsq (rv 0 e 0)) = fun _ => 0%R.
Proof.
  intros He. unfold tangent1.
  assert (E : (norm3 rsq (cross (rv 0 e 0) unit_x) <? nofQ (1 # 100000))%num = true).
  { apply Rltb_true. unfold norm3. rewrite dot3_dot. unfold dot, cross, rv, unit_x, v3. cbn [vget Rnum nsub nmul n0 n1 nofQ].
    replace (Q2R (1 # 100000)) with (/ 100000)%R by (unfold Q2R; simpl; lra).
    match goal with |- (sqrt ?x < _)%R => replace x with (e * e)%R by ring end.
    rewrite sqrt_square by lra. lra. }
  rewrite E. apply FunctionalExtensionality.functional_extensionality.
  intros [|[|[|i]]]; unfold cross, rv, unit_y, v3; cbn [vget Rnum nsub nmul n0 n1]; rring.
Qed.
Lemma normalize_zero (t : vec Rnum) : (forall i, vget t i = 0%R) -> normalize3 rsq t = t.
Proof.
  intros H. unfold normalize3. rewrite dot3_dot.
  replace (dot (vget t) (vget t)) with 0%R by (unfold dot; rewrite !H; ring).
  replace (@nltb Rnum n0 0%R) with false; [reflexivity|]. symmetry. apply Rltb_false. cbn. lra.
Qed.
Theorem tiny_normal_refuted dbg name : exists (s : rcont) f, made_valid rsq KP dbg name s /\
  (0 < dot (vget (k_n s)) (vget (k_n s)))%R /\ sat (k_ineq s) f /\
  forall t1 t2, frame (vget (k_n s)) t1 t2 -> ~ friction_ok 1 (vget (k_n s)) t1 t2 (k_mu s) (k_fmin s) (k_fmax s) f.
Proof.
  set (e := (/ 1000000)%R). assert (He : (0 < e < / 100000)%R) by (unfold e; lra).
  destruct (ground KP dbg name) as (s0 & V & N0 & M0 & A0 & B0 & _).
  set (s := refresh_ineq rsq KP s0 (rv 0 e 0) (k_mu s0)).
  assert (St : cstep rsq KP s0 (SetNormal KP (rv 0 e 0)) = Ret s true) by reflexivity.
  assert (Vs : made_valid rsq KP dbg name s).
  { destruct V as (jk & P & n & mu & fmin & fmax & s1 & H0 & Hp & Hr). exists jk, P, n, mu, fmin, fmax, s1.
    split; [exact H0|]. split; [exact Hp|]. eapply reach_step; [exact Hr|exact I|]. rewrite St. reflexivity. }
  set (f := vget (rv 100 (/ e) 0)).
  assert (Ks : k_n s = rv 0 e 0 /\ k_mu s = (/ 2)%R /\ k_fmin s = 1%R /\ k_fmax s = 100%R).
  { unfold s. cbn [refresh_ineq w_ineq k_n k_mu k_fmin k_fmax]. auto. }
  destruct Ks as (Kn & Kmu & Kmin & Kmax). exists s, f. split; [exact Vs|]. rewrite Kn, Kmu, Kmin, Kmax.
  assert (Dn : forall g, dot (vget (rv 0 e 0)) g = (e * g 1%nat)%R) by (intros g; unfold dot, rv, v3; cbn [vget]; rring).
  split; [rewrite Dn; unfold rv, v3; cbn [vget]; nra|].
  assert (Ef : (e * f 1%nat = 1)%R) by (unfold f, rv, v3; cbn [vget]; field; lra).
  assert (T : total_normal 1 (vget (rv 0 e 0)) f = 1%R).
  { unfold total_normal. rewrite rsum_S, rsum_0, Dn. unfold at_point. cbn [Nat.mul Nat.add]. rewrite Ef. apply Rplus_0_l. }
  destruct (made_current _ KP dbg name s (valid_made _ KP dbg name s Vs)) as [C _].
  split.
  - apply (current_sat KP s f ltac:(discriminate) C). rewrite Kn, Kmu, Kmin, Kmax.
    apply ineq_complete; [discriminate|lra|unfold big; replace (Q2R 10000000000) with (10000000000)%R by (unfold Q2R; simpl; lra); lra|].
    assert (T1 : forall g, dot (vget (t_one rsq (rv 0 e 0))) g = 0%R).
    { intros g. unfold t_one. rewrite normalize_zero by (intros; rewrite (tiny_tangent e He); reflexivity).
      rewrite (tiny_tangent e He). unfold dot. ring. }
    assert (T2 : forall g, dot (vget (t_two rsq (rv 0 e 0))) g = 0%R).
    { intros g. assert (Z : forall i, vget (cross (rv 0 e 0) (tangent1 rsq (rv 0 e 0))) i = 0%R).
      { intros i. rewrite crs_model, (tiny_tangent e He). unfold crs. destruct i as [|[|i]]; rring. }
      unfold t_two. rewrite normalize_zero by exact Z. unfold dot. rewrite !Z. ring. }
    cbn [npts]. split; [|rewrite T; lra]. intros i Hi. replace i with 0 by lia.
    unfold pyramid. rewrite T1, T2, Dn, Rabs_R0. unfold at_point. cbn [Nat.mul Nat.add]. rewrite Ef. lra.
  - intros t1 t2 (F1 & F2 & F3 & F4 & F5) [P _]. rewrite Dn in F4, F5.
    assert (Z1 : t1 1%nat = 0%R) by (apply (Rmult_eq_reg_l e); lra). assert (Z2 : t2 1%nat = 0%R) by (apply (Rmult_eq_reg_l e); lra).
    unfold dot in F1, F2, F3. rewrite Z1 in *. rewrite Z2 in *.
    specialize (P 0 ltac:(lia)). unfold pyramid in P. rewrite Dn in P. unfold at_point in P. cbn [Nat.mul Nat.add] in P. rewrite Ef in P.
    unfold dot in P. rewrite Z1, Z2 in P. unfold f, rv, v3 in P. cbn [vget] in P.
    assert (B : (t1 0%nat * t1 0%nat + t2 0%nat * t2 0%nat = 1)%R) by (apply (plane_basis _ _ (t1 2%nat) (t2 2%nat)); lra).
    destruct P as [P1 P2]. apply Rabs_le_iff in P1. apply Rabs_le_iff in P2.
    assert ((t1 0%nat * t1 0%nat <= / 10000)%R) by nra. assert ((t2 0%nat * t2 0%nat <= / 10000)%R) by nra. lra.
Qed.

(** ** The artificial bound 1e10 *)
Theorem huge_force_refuted dbg name : exists (s : rcont) f, made_valid rsq KP dbg name s /\
  dot (vget (k_n s)) (vget (k_n s)) = 1%R /\ ~ sat (k_ineq s) f /\
  forall t1 t2, frame (vget (k_n s)) t1 t2 -> friction_ok 1 (vget (k_n s)) t1 t2 (k_mu s) (k_fmin s) (k_fmax s) f.
Proof.
  set (F := 20000000000%R).
  destruct (build rsq KP dbg name square (rv 0 0 1) 1%R 1%R F eq_refl eq_refl eq_refl) as (s & E & N & M & A & B & _ & Hm).
  exists s, (vget (rv 0 0 F)). rewrite N, M, A, B.
  assert (Dn : forall g, dot (vget (rv 0 0 1)) g = g 2%nat) by (intros g; unfold dot, rv, v3; cbn [vget]; rring).
  split.
  - exists (fun _ _ => n0), square, (rv 0 0 1), 1%R, 1%R, F, s. split; [exact E|]. split; [|apply reach_init].
    unfold positive. rewrite M, A, B. repeat split; cbn [Rnum nltb nleb n0]; [apply Rltb_true|apply Rleb_true|apply Rltb_true]; unfold F; lra.
  - split; [rewrite Dn; reflexivity|]. destruct (made_current _ KP dbg name s Hm) as [C _]. split.
    + intros H. apply (current_sat KP s _ ltac:(discriminate) C) in H. rewrite N, M, A, B in H.
      apply ineq_sat in H as [H _]; [|discriminate]. cbn [npts] in H.
      pose proof (H 0 0 ltac:(lia) ltac:(lia)) as H0. pose proof (H 0 1 ltac:(lia) ltac:(lia)) as H1.
      rewrite frow_dot in H0, H1 by lia. rewrite Dn in H0, H1. unfold at_point in H0, H1. cbn [Nat.mul Nat.add] in H0, H1.
      change (vget (rv 0 0 F) 2) with F in H0, H1. unfold big in H0, H1.
      replace (Q2R 10000000000) with (10000000000)%R in H0, H1 by (unfold Q2R; simpl; lra). unfold F in H0, H1. lra.
    + intros t1 t2 (_ & _ & _ & H1 & H2). rewrite Dn in H1, H2.
      split; [|unfold total_normal; rewrite rsum_S, rsum_0, Dn; unfold at_point; cbn [Nat.mul Nat.add];
               change (vget (rv 0 0 F) 2) with F; unfold F; lra].
      intros i Hi. replace i with 0 by lia. unfold pyramid. rewrite Dn. unfold dot, at_point. cbn [Nat.mul Nat.add].
      rewrite H1, H2. unfold rv, v3. cbn [vget].
      replace (t1 0%nat * 0 + t1 1%nat * 0 + 0 * F)%R with 0%R by ring.
      replace (t2 0%nat * 0 + t2 1%nat * 0 + 0 * F)%R with 0%R by ring. rewrite Rabs_R0. unfold F. lra.
Qed.

(** ** Two-frame contacts check nothing *)
Theorem two_frame_limits_refuted dbg name : exists s : rcont, made_valid rsq K2 dbg name s /\
  (k_fmax s < k_fmin s)%R /\ forall f, ~ sat (k_ineq s) f.
Proof.
  destruct (ground K2 dbg name) as (s0 & V & N0 & M0 & A0 & B0 & _).
  destruct (cstep rsq K2 s0 (SetMin K2 (200%R : Rnum))) as [s b|s|] eqn:E; try discriminate.
  assert (Es : k_fmin s = 200%R /\ k_fmax s = 100%R).
  { cbn [cstep] in E. injection E as <- _. cbn [w_ineq k_fmin k_fmax]. auto. }
  assert (Vs : made_valid rsq K2 dbg name s).
  { destruct V as (jk & P & n & mu & fmin & fmax & s1 & H0 & Hp & Hr). exists jk, P, n, mu, fmin, fmax, s1.
    split; [exact H0|]. split; [exact Hp|]. eapply reach_step; [exact Hr|exact I|]. rewrite E. reflexivity. }
  exists s. split; [exact Vs|]. destruct Es as [-> ->]. split; [lra|]. intros f H.
  pose proof (made_current _ K2 dbg name s (valid_made _ K2 dbg name s Vs)) as [C _].
  apply (proj1 (two_frame_box dbg name s (valid_made _ K2 dbg name s Vs) f)) with (j := 0) in H; [|lia].
  assert (Es : k_fmin s = 200%R /\ k_fmax s = 100%R).
  { cbn [cstep] in E. injection E as <- _. cbn [w_ineq k_fmin k_fmax]. auto. }
  destruct Es as [X Y]. rewrite X, Y in H. lra.
Qed.
(** getNormalForce of a two-frame contact is 0 for every force. *)
Theorem two_frame_normal_force (s : rcont) f : normal_force K2 s f = Ret s 0%R.
Proof. reflexivity. Qed.

(** ** setContactPoints leaves the regularisation task behind *)
Theorem stale_reg_refuted dbg name : exists (s : rcont) P s', made_valid rsq K6 dbg name s /\
  cstep rsq K6 s (SetPoints P) = Ret s' true /\
  ~ asks_wrench true 6 (k_pts s') (vget (k_w s')) (vget (k_fref s')) (k_reg s').
Proof.
  destruct (build rsq K6 dbg name square (rv 0 0 1) 1%R 1%R 100%R eq_refl eq_refl eq_refl) as (s & E & N & M & A & B & P & _).
  assert (Q := reg_new K6 dbg _ name _ _ _ _ _ s s E (reach_init _ _ _)). cbn [is_six nreg] in Q.
  destruct (cstep rsq K6 s (SetPoints origin)) as [s' b|s'|] eqn:Es; try discriminate.
  assert (Eq : b = true /\ k_pts s' = origin /\ k_w s' = k_w s /\ k_reg s' = k_reg s).
  { cbn [cstep] in Es. unfold check_arg in Es. cbn [origin mzero mrows mcols Nat.eqb andb] in Es. injection Es as <- <-. auto. }
  destruct Eq as (-> & E1 & E2 & E3). exists s, origin, s'. split; [|split; [exact Es|]].
  - exists (fun _ _ => n0), square, (rv 0 0 1), 1%R, 1%R, 100%R, s. split; [exact E|]. split; [|apply reach_init].
    unfold positive. rewrite M, A, B. repeat split; cbn [Rnum nltb nleb n0]; [apply Rltb_true|apply Rleb_true|apply Rltb_true]; lra.
  - intros (_ & _ & _ & H). rewrite E1, E2, E3 in H. destruct Q as (_ & _ & _ & Q).
    destruct (Q (fun i => if i =? 2 then 1%R else 0%R) 3 ltac:(lia)) as [Q1 _].
    destruct (H (fun i => if i =? 2 then 1%R else 0%R) 3 ltac:(lia)) as [H1 _].
    rewrite Q1 in H1. rewrite (P eq_refl) in H1.
    assert (W : vget (k_w s) 3 = 2%R).
    { unfold cont_new in E. cbn [guard square mrows mcols rv v3 vlen Nat.eqb Nat.leb andb orb negb] in E.
      destruct dbg; cbn [negb orb andb guard obind] in E;
        (destruct (force_reg K6 name _ _ _) as [c|]; [cbn [obind] in E; injection E as <-|discriminate]);
        cbn [k_w vget Rnum nofQ]; unfold Q2R; simpl; lra. }
    rewrite W in H1. unfold wrench in H1. cbn [Nat.ltb Nat.leb Nat.sub] in H1. unfold moment in H1. rewrite !rsum_S, !rsum_0 in H1.
    unfold crs, at_point in H1. cbn [Nat.mul Nat.add Nat.eqb square origin mzero mget Rnum n0] in H1. lra.
Qed.
