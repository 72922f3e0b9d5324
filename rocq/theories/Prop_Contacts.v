(** Properties C29-C33: contacts over every sequence of setter calls.  Only statements;
    the proofs are in ContactProofs.v, ContactReal.v, ContactWrench.v, ContactSetters.v and
    ContactRefute.v.  [made k dbg name s]: [s] is reached from a constructor call by
    arbitrary setter calls, accepted or rejected; [made_valid]: the constructor was
    given 0 < fMin <= fMax and mu > 0. *)
From Coq Require Import String List Arith Bool QArith Reals Qreals Lia Lra.
From Verif Require Import Scalar Outcome Linalg Constraint FormPhysSpec Contacts ContactSpec ContactProofs ContactReal ContactWrench ContactRefute ContactSetters.
Import ListNotations.
Open Scope nat_scope.

(** ** C29 the force constraint is the friction pyramid *)
Theorem C29_pyramid : forall k dbg name (s : rcont), k <> K2 -> made rsq k dbg name s ->
  (/ 10 ^ 10 <= dot (vget (k_n s)) (vget (k_n s)))%R ->
  exists t1 t2, frame (vget (k_n s)) t1 t2 /\ forall f,
    (sat (k_ineq s) f -> friction_ok (npts k) (vget (k_n s)) t1 t2 (k_mu s) (k_fmin s) (k_fmax s) f) /\
    ((0 < k_mu s)%R -> (2 * k_mu s * k_fmax s <= big)%R ->
     friction_ok (npts k) (vget (k_n s)) t1 t2 (k_mu s) (k_fmin s) (k_fmax s) f -> sat (k_ineq s) f).
Proof. exact contact_meaning. Qed.
Print Assumptions C29_pyramid.
Theorem C29_normal_force : forall k (s : rcont) (f : vec Rnum), k <> K2 -> vlen f = nforce k ->
  normal_force k s f = Ret s (total_normal (npts k) (vget (k_n s)) (vget f)).
Proof. exact normal_force_meaning. Qed.
Print Assumptions C29_normal_force.
Theorem C29_normal_force_size : forall k (s : rcont) (f : vec Rnum), k <> K2 -> vlen f <> nforce k -> normal_force k s f = Exc s.
Proof. exact normal_force_size. Qed.
Print Assumptions C29_normal_force_size.
Theorem C29_two_frame : forall dbg name (s : rcont), made rsq K2 dbg name s -> forall f,
  sat (k_ineq s) f <-> forall j, j < 3 -> (k_fmin s <= f j <= k_fmax s)%R.
Proof. exact two_frame_box. Qed.
Print Assumptions C29_two_frame.
(** Without 2 mu fMax <= 1e10 the constraint is stricter than the pyramid. *)
Theorem C29_large_force_refuted : forall dbg name, exists (s : rcont) f, made_valid rsq KP dbg name s /\
  dot (vget (k_n s)) (vget (k_n s)) = 1%R /\ ~ sat (k_ineq s) f /\
  forall t1 t2, frame (vget (k_n s)) t1 t2 -> friction_ok 1 (vget (k_n s)) t1 t2 (k_mu s) (k_fmin s) (k_fmax s) f.
Proof. exact huge_force_refuted. Qed.
Print Assumptions C29_large_force_refuted.
Theorem C29_two_frame_normal_force_refuted : forall (s : rcont) f, normal_force K2 s f = Ret s 0%R.
Proof. exact two_frame_normal_force. Qed.
Print Assumptions C29_two_frame_normal_force_refuted.
(** A contact on the ground: the hypotheses hold and the constraint is neither empty
    nor full. *)
Example C29_case : forall k dbg name, k <> K2 -> exists s : rcont, made rsq k dbg name s /\
  (/ 10 ^ 10 <= dot (vget (k_n s)) (vget (k_n s)))%R /\ (0 < k_mu s)%R /\ (2 * k_mu s * k_fmax s <= big)%R /\
  (exists f, sat (k_ineq s) f) /\ exists f, ~ sat (k_ineq s) f.
Proof.
  intros k dbg name Hk. destruct (ground k dbg name) as (s & V & N & M & A & B & _). apply valid_made in V.
  assert (D : (/ 10 ^ 10 <= dot (vget (k_n s)) (vget (k_n s)))%R).
  { rewrite N. unfold dot, rv, v3. cbn [vget]. lra. }
  assert (Bg : (2 * k_mu s * k_fmax s <= big)%R).
  { rewrite M, B. unfold big, Q2R. simpl. lra. }
  exists s. split; [exact V|]. split; [exact D|]. rewrite M. split; [lra|]. rewrite <- M. split; [exact Bg|].
  destruct (contact_meaning k dbg name s Hk V D) as (t1 & t2 & F & G). split.
  - exists (fun i => if i mod 3 =? 2 then 2%R else 0%R). apply (G _); [rewrite M; lra|exact Bg|].
    rewrite N in *. rewrite M, A, B. apply ground_pyramid; assumption.
  - exists (fun _ => 0%R). intros H. apply G in H as [_ H]. rewrite A, N in H. unfold total_normal, dot, at_point in H.
    rewrite (RSum.rsum_zero (npts k)) in H by (intros; ring). lra.
Qed.

(** ** C30 tangents *)
Theorem C30_frame : forall n : vec Rnum, (/ 10 ^ 10 <= dot (vget n) (vget n))%R ->
  frame (vget n) (vget (t_one rsq n)) (vget (t_two rsq n)).
Proof. exact tangents_frame. Qed.
Print Assumptions C30_frame.
(** A normal shorter than 1e-5 is accepted and may leave a tangential direction
    unlimited. *)
Theorem C30_short_normal_refuted : forall dbg name, exists (s : rcont) f, made_valid rsq KP dbg name s /\
  (0 < dot (vget (k_n s)) (vget (k_n s)))%R /\ sat (k_ineq s) f /\
  forall t1 t2, frame (vget (k_n s)) t1 t2 -> ~ friction_ok 1 (vget (k_n s)) t1 t2 (k_mu s) (k_fmin s) (k_fmax s) f.
Proof. exact tiny_normal_refuted. Qed.
Print Assumptions C30_short_normal_refuted.
(** Unit normals qualify, in particular the axis used to build the tangents. *)
Example C30_case : forall n : vec Rnum, dot (vget n) (vget n) = 1%R -> (/ 10 ^ 10 <= dot (vget n) (vget n))%R.
Proof. intros n ->. lra. Qed.
Example C30_case_axis : dot (vget (@unit_x Rnum)) (vget (@unit_x Rnum)) = 1%R.
Proof. unfold dot, unit_x, v3. cbn [vget Rnum n0 n1]. lra. Qed.

(** ** C31 parameters under any setter sequence *)
Theorem C31_limits : forall (K : num) (sq : K -> K) k dbg name s, k <> K2 -> made_valid sq k dbg name s ->
  (n0 <? k_fmin s)%num = true /\ (k_fmin s <=? k_fmax s)%num = true /\ (n0 <? k_mu s)%num = true.
Proof. intros K sq k dbg name s. exact (made_positive sq k dbg name s). Qed.
Print Assumptions C31_limits.
Theorem C31_reflects : forall (K : num) (sq : K -> K) k dbg name s, made sq k dbg name s ->
  ceq (k_ineq s) (force_ineq sq k (c_name (k_ineq s)) (k_n s) (k_mu s) (k_fmin s) (k_fmax s)) /\ c_name (k_ineq s) = name.
Proof. intros K sq k dbg name s. exact (made_current sq k dbg name s). Qed.
Print Assumptions C31_reflects.
Theorem C31_rejected : forall (K : num) (sq : K -> K) k s (o : cop K k) s', cstep sq k s o = Exc s' -> s' = s.
Proof. intros K sq. exact (setter_exc sq). Qed.
Print Assumptions C31_rejected.
Theorem C31_accepted : forall (K : num) (sq : K -> K) k s (o : cop K k), is_param o ->
  if acceptable s o then exists s', cstep sq k s o = Ret s' true else cstep sq k s o = Exc s.
Proof. intros K sq. exact (accepted_iff sq). Qed.
Print Assumptions C31_accepted.
(** What the constructor needs and stores. *)
Theorem C31_initial : forall (K : num) (sq : K -> K) k dbg jk name P n mu fmin fmax,
  ((exists s, cont_new sq k dbg jk name P n mu fmin fmax = Some s) <-> fits k dbg P n) /\
  forall s, cont_new sq k dbg jk name P n mu fmin fmax = Some s ->
    k_n s = n /\ k_mu s = mu /\ k_fmin s = fmin /\ k_fmax s = fmax /\
    lists (k_w s) (default_weights k) /\ vlen (k_fref s) = length (default_weights k) /\ (forall i, vget (k_fref s) i = n0) /\
    match k with K6 => k_pts s = P | _ => mrows (k_pts s) = 3 /\ mcols (k_pts s) = 1 /\ forall i j, mget (k_pts s) i j = n0 end /\
    c_name (k_ineq s) = name /\ c_name (k_reg s) = name.
Proof. intros K sq. exact (contact_initial sq). Qed.
Print Assumptions C31_initial.
Theorem C31_stored : forall (K : num) (sq : K -> K) k s (o : cop K k) s' r, cstep sq k s o = Ret s' r ->
  (k <> K2 -> k_n s' = match o with SetNormal _ n => n | _ => k_n s end /\
              k_mu s' = match o with SetMu _ m => m | _ => k_mu s end) /\
  k_fmin s' = match o with SetMin _ f => f | _ => k_fmin s end /\
  k_fmax s' = match o with SetMax _ f => f | _ => k_fmax s end /\
  k_pts s' = match o with SetPoints P => P | _ => k_pts s end /\
  k_fref s' = match o with SetFref _ f => f | _ => k_fref s end /\
  k_w s' = match o with SetWeights _ w => w | _ => k_w s end.
Proof. intros K sq. exact (stored_all sq). Qed.
Print Assumptions C31_stored.
Theorem C31_defined : forall (K : num) (sq : K -> K) k dbg name s (o : cop K k), made sq k dbg name s -> right_size o ->
  cstep sq k s o <> Undef.
Proof. intros K sq. exact (setters_defined sq). Qed.
Print Assumptions C31_defined.
(** Wrong sizes of the force reference are rejected by the point contact only. *)
Theorem C31_reference_size : forall (K : num) (sq : K -> K) k (s : cont K) v, vlen v <> nreg k ->
  cstep sq k s (SetFref k v) = match k with KP => Exc s | _ => Undef end /\ cstep sq k s (SetWeights k v) = Undef.
Proof. intros K sq. exact (wrong_size sq). Qed.
Print Assumptions C31_reference_size.
Theorem C31_two_frame_refuted : forall dbg name, exists s : rcont, made_valid rsq K2 dbg name s /\
  (k_fmax s < k_fmin s)%R /\ forall f, ~ sat (k_ineq s) f.
Proof. exact two_frame_limits_refuted. Qed.
Print Assumptions C31_two_frame_refuted.
Example C31_case_initial : fits K6 true (mkMat (K := Rnum) 3 4 (fun _ _ => 0%R)) (@vzero Rnum 3) /\ ~ fits K6 true (mkMat (K := Rnum) 3 5 (fun _ _ => 0%R)) (@vzero Rnum 3).
Proof. cbn. split; [repeat split; lia|]. intros (_ & _ & H & _). specialize (H eq_refl). lia. Qed.
(** A history with an accepted and a rejected call. *)
Example C31_case : forall dbg name, exists s s1 : rcont, made_valid rsq K6 dbg name s /\
  cstep rsq K6 s (SetMin K6 (50%R : Rnum)) = Ret s1 true /\ k_fmin s1 = 50%R /\
  cstep rsq K6 s1 (SetMax K6 (20%R : Rnum)) = Exc s1 /\ cstep rsq K6 s (SetMu K6 (0%R : Rnum)) = Exc s.
Proof.
  intros dbg name. destruct (ground K6 dbg name) as (s & V & N & M & A & B & _).
  pose proof (accepted_iff rsq K6 s (SetMin K6 (50%R : Rnum)) I) as X. cbn [acceptable] in X. rewrite B in X.
  cbn [Rnum nltb nleb n0] in X.
  replace (Rltb 0 50) with true in X by (symmetry; apply Rltb_true; lra).
  replace (Rleb 50 100) with true in X by (symmetry; apply Rleb_true; lra). cbn [andb] in X. destruct X as [s1 E].
  pose proof (accepted_value rsq K6 s (SetMin K6 (50%R : Rnum)) s1 true ltac:(discriminate) E) as (_ & _ & F & _).
  exists s, s1. split; [exact V|]. split; [exact E|]. split; [exact F|]. split.
  - pose proof (accepted_iff rsq K6 s1 (SetMax K6 (20%R : Rnum)) I) as Y. cbn [acceptable] in Y. rewrite F in Y.
    cbn [Rnum nleb] in Y. replace (Rleb 50 20) with false in Y by (symmetry; apply Rleb_false; lra). exact Y.
  - pose proof (accepted_iff rsq K6 s (SetMu K6 (0%R : Rnum)) I) as Y. cbn [acceptable Rnum nltb n0] in Y.
    replace (Rltb 0 0) with false in Y by (symmetry; apply Rltb_false; lra). exact Y.
Qed.

(** ** C32 wrench of the point forces *)
Theorem C32_generator : forall k dbg name (s : rcont), made rsq k dbg name s ->
  mrows (k_gen s) = nreg k /\ mcols (k_gen s) = nforce k /\
  forall f r, r < nreg k -> @nsum Rnum (nforce k) (fun c => mget (k_gen s) r c * f c)%R = wrench (is_six k) (k_pts s) f r.
Proof. exact generator_meaning. Qed.
Print Assumptions C32_generator.
(** The generator preserves virtual power: wrench times twist is the power of the point
    forces in the velocities of the points. *)
Theorem C32_virtual_power : forall dbg name (s : rcont), made rsq K6 dbg name s -> forall f lin an : nat -> R,
  @nsum Rnum 6 (fun r => @nsum Rnum 12 (fun c => mget (k_gen s) r c * f c) * (if r <? 3 then lin r else an (r - 3)%nat))%R =
  @nsum Rnum 4 (fun i => dot (at_point f i) (fun a => lin a + crs an (fun b => mget (k_pts s) b i) a))%R.
Proof. exact virtual_power. Qed.
Print Assumptions C32_virtual_power.
Theorem C32_regularisation_new : forall k dbg jk name P n mu fmin fmax (s0 s : rcont),
  cont_new rsq k dbg jk name P n mu fmin fmax = Some s0 ->
  reach (cstep rsq k) (fun _ o => keeps_points o) s0 s ->
  asks_wrench (is_six k) (nreg k) (k_pts s) (vget (k_w s)) (vget (k_fref s)) (k_reg s).
Proof. exact reg_new. Qed.
Print Assumptions C32_regularisation_new.
Theorem C32_regularisation_after : forall k dbg name (s : rcont) (o : cop Rnum k) s1 r s2, made rsq k dbg name s ->
  sets_reg o -> cstep rsq k s o = Ret s1 r -> reach (cstep rsq k) (fun _ o => keeps_points o) s1 s2 ->
  asks_wrench (is_six k) (nreg k) (k_pts s2) (vget (k_w s2)) (vget (k_fref s2)) (k_reg s2).
Proof. exact reg_after. Qed.
Print Assumptions C32_regularisation_after.
Theorem C32_regularisation_refuted : forall dbg name, exists (s : rcont) P s', made_valid rsq K6 dbg name s /\
  cstep rsq K6 s (SetPoints P) = Ret s' true /\
  ~ asks_wrench true 6 (k_pts s') (vget (k_w s')) (vget (k_fref s')) (k_reg s').
Proof. exact stale_reg_refuted. Qed.
Print Assumptions C32_regularisation_refuted.
Example C32_case : forall dbg name, exists s : rcont, made rsq K6 dbg name s /\ k_pts s = square /\
  exists s1, cstep rsq K6 s (SetFref K6 (vzero 6)) = Ret s1 true.
Proof.
  intros dbg name. destruct (ground K6 dbg name) as (s & V & N & M & A & B & P). exists s.
  apply valid_made in V. split; [exact V|]. split; [apply P; reflexivity|].
  pose proof (setters_defined rsq K6 dbg name s (SetFref K6 (vzero 6)) V eq_refl) as D.
  destruct (cstep rsq K6 s (SetFref K6 (vzero 6))) as [s1 b|s1|] eqn:E; [| |congruence].
  - exists s1. rewrite (setter_true rsq K6 _ _ _ _ E). reflexivity.
  - cbn [cstep nreg vzero vlen Nat.eqb] in E. unfold refresh_reg in E. destruct (force_reg _ _ _ _ _); discriminate.
Qed.

(** ** C33 centre of pressure *)
Theorem C33_support_polygon : forall k dbg name (s : rcont) h f, k <> K2 -> made_valid rsq k dbg name s ->
  (forall i, i < npts k -> dot (vget (k_n s)) (fun a => mget (k_pts s) a i) = h) -> sat (k_ineq s) f ->
  (exists c, centre_of_pressure (npts k) (fun i a => mget (k_pts s) a i) (vget (k_n s)) h f c) /\
  forall c, centre_of_pressure (npts k) (fun i a => mget (k_pts s) a i) (vget (k_n s)) h f c ->
    in_hull (npts k) (fun i a => mget (k_pts s) a i) c.
Proof. exact contact_cop. Qed.
Print Assumptions C33_support_polygon.
Example C33_case : forall dbg name, exists s : rcont, made_valid rsq K6 dbg name s /\
  (forall i, i < npts K6 -> dot (vget (k_n s)) (fun a => mget (k_pts s) a i) = 0%R) /\ exists f, sat (k_ineq s) f.
Proof.
  intros dbg name. destruct (ground K6 dbg name) as (s & V & N & M & A & B & P). exists s. split; [exact V|]. split.
  - intros i Hi. rewrite N, (P eq_refl). unfold dot, rv, v3, square. cbn [vget mget]. lra.
  - assert (D : (/ 10 ^ 10 <= dot (vget (k_n s)) (vget (k_n s)))%R) by (rewrite N; unfold dot, rv, v3; cbn [vget]; lra).
    destruct (contact_meaning K6 dbg name s ltac:(discriminate) (valid_made _ _ _ _ _ V) D) as (t1 & t2 & F & G).
    exists (fun i => if i mod 3 =? 2 then 2%R else 0%R). apply (G _); [rewrite M; lra| |].
    + rewrite M, B. unfold big, Q2R. simpl. lra.
    + rewrite N in *. rewrite M, A, B. apply (ground_pyramid K6); [discriminate|exact F].
Qed.
