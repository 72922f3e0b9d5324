(** Properties C43 - C45 and C64 - C66: centre-of-pressure, capture point and contact
    force tasks.  Only statements; the proofs are in ForceCop.v, ForceTasksR.v and ForceSetters.v.
    [cop_made], [cap_made], [cf_made]: tasks reached by any calls at all.
    [psum l g]: sum of g over all contact points; [fvar y c j]: force variables of a point.
    [cblock]: place of a contact in the force vector; [nforces]: length of that vector. *)
From Coq Require Import String List Arith Bool ZArith Qreals Reals Lia Lra.
From Verif Require Import Scalar Outcome Linalg Constraint FormSpec FormPhysSpec SolverSpec RSum FrameTasks FrameTasksR FrameRefute ForceTasks ForceCop ForceTasksR ForceSetters.
Import ListNotations.
Open Scope string_scope.
Open Scope list_scope.
Open Scope nat_scope.

(** ** C43 centre of pressure *)
Theorem C43_meaning : forall name jk (s : copt Rnum) l, cop_made name s -> three_per_point l -> tiles 0 (map cblock l) (nforces l) ->
  exists s', cop_step s (QCompute jk l) = Ret s' tt /\ forall y,
    (sat (q_c s') y <-> forall r, r < 3 -> psum l (fun c j => (wpoint c j r - q_ref s r) * dot3 (q_n s) (fvar y c j))%R = 0%R).
Proof. exact cop_meaning. Qed.
Print Assumptions C43_meaning.
Theorem C43_cop : forall name jk (s : copt Rnum) l, cop_made name s -> three_per_point l -> tiles 0 (map cblock l) (nforces l) ->
  exists s', cop_step s (QCompute jk l) = Ret s' tt /\ forall y, normal_total l (q_n s) y <> 0%R ->
    (sat (q_c s') y <-> forall r, r < 3 -> cop_at l (q_n s) y r = q_ref s r).
Proof. exact cop_pins. Qed.
Print Assumptions C43_cop.
Theorem C43_setters : forall (K : num) (s : copt K),
  (forall r, exists s', cop_step s (QRef r) = Ret s' tt /\ (q_ref s', q_n s', q_c s') = (r, q_n s, q_c s)) /\
  (forall n, exists s', cop_step s (QNormal n) = Ret s' tt /\ (q_ref s', q_n s', q_c s') = (q_ref s, n, q_c s)) /\
  (forall jk l s', cop_step s (QCompute jk l) = Ret s' tt -> q_ref s' = q_ref s /\ q_n s' = q_n s).
Proof. exact @cop_setters. Qed.
Print Assumptions C43_setters.
Theorem C43_initial : forall (K : num) name, (forall i, q_n (cop_new (K := K) name) i = if i =? 2 then n1 else n0) /\ (forall i, q_ref (cop_new (K := K) name) i = n0).
Proof. exact @cop_initial. Qed.
Print Assumptions C43_initial.
(** Two contacts, of two and of one points, the second one turned about z. *)
Definition ex_left : rcon := @mkCcon Rnum 0 6 (@mkMat Rnum 3 2 (fun i j => if i =? 0 then INR j else 0%R)) (fun i j => if i =? j then 1%R else 0%R) (fun _ => 0%R).
Definition ex_right : rcon := @mkCcon Rnum 6 3 (@mkMat Rnum 3 1 (fun _ _ => 0%R)) Rz (unit_k 1).
Definition ex_force : rvec := fun k => match k with 2 => 1%R | 5 => 2%R | 8 => 1%R | _ => 0%R end.
Example C43_case : three_per_point [ex_left; ex_right] /\ tiles 0 (map cblock [ex_left; ex_right]) (nforces [ex_left; ex_right]) /\ nforces [ex_left; ex_right] = 9 /\
  normal_total [ex_left; ex_right] (unit_k 2) ex_force = 4%R /\ cop_at [ex_left; ex_right] (unit_k 2) ex_force 0 = (/ 2)%R /\ cop_at [ex_left; ex_right] (unit_k 2) ex_force 1 = (/ 4)%R.
Proof.
  split; [intros c [<-|[<-|[]]]; reflexivity|]. split; [cbn; auto|]. split; [reflexivity|].
  unfold cop_at, normal_total, psum, wpoint, dot3, fvar, rot, lsum. cbn. split; [lra|]. split; field.
Qed.

(** ** C64 the centre of pressure of the world forces
    Contact forces are expressed in the contact frame, the normal is not. *)
Theorem C64_kept_normal : forall name jk (s : copt Rnum) l, cop_made name s -> three_per_point l -> tiles 0 (map cblock l) (nforces l) -> keeps_normal l (q_n s) ->
  exists s', cop_step s (QCompute jk l) = Ret s' tt /\ forall y, true_normal_total l (q_n s) y <> 0%R ->
    (sat (q_c s') y <-> forall r, r < 3 -> true_cop l (q_n s) y r = q_ref s r).
Proof. exact cop_pins_local. Qed.
Print Assumptions C64_kept_normal.
Example C64_case : keeps_normal [ex_left; ex_right] (unit_k 2) /\ true_normal_total [ex_left; ex_right] (unit_k 2) ex_force = 4%R.
Proof.
  split; [|unfold true_normal_total, psum, dot3, fvar, rot, lsum; cbn; lra].
  intros c [<-|[<-|[]]] k Hk; destruct k as [|[|[|k]]]; try lia; unfold rot, tr; cbn; lra.
Qed.
Theorem C64_tilted_refuted : forall name jk, exists (s s' : copt Rnum) (l : list rcon) (y : rvec), cop_made name s /\ three_per_point l /\ tiles 0 (map cblock l) (nforces l) /\
  (forall c, In c l -> orthogonal (w_R c)) /\ cop_step s (QCompute jk l) = Ret s' tt /\ sat (q_c s') y /\
  true_normal_total l (q_n s) y = 1%R /\ true_cop l (q_n s) y 0 = 1%R /\ q_ref s 0 = 0%R.
Proof. exact cop_true_refuted. Qed.
Print Assumptions C64_tilted_refuted.
Theorem C64_off_plane : forall name jk (s : copt Rnum) l h, cop_made name s -> three_per_point l -> tiles 0 (map cblock l) (nforces l) ->
  (forall c j, In c l -> j < mcols (w_pts c) -> dot3 (q_n s) (vminus (wpoint c j) (q_ref s)) = h) -> h <> 0%R ->
  exists s', cop_step s (QCompute jk l) = Ret s' tt /\ forall y, sat (q_c s') y -> normal_total l (q_n s) y = 0%R.
Proof. exact cop_off_plane. Qed.
Print Assumptions C64_off_plane.
Example C64_off_plane_case : forall c j, In c [ex_left; ex_right] -> dot3 (unit_k 2) (vminus (wpoint c j) (unit_k 2)) = (-1)%R.
Proof. intros c j [<-|[<-|[]]]; unfold dot3, vminus, wpoint, rot; cbn; lra. Qed.

(** ** C44 capture point *)
Theorem C44_meaning : forall name nv dt g s (d : cdata Rnum), cap_made name nv dt g s -> (0 < g)%R -> (0 < dt)%R -> (0 < g_p d 2%nat)%R ->
  exists s', @cap_step Rnum sqrt s (VCompute d) = Ret s' tt /\ forall dv,
    (sat (v_c s') dv <-> forall i, i < 2 -> (v_min s i + v_mar s i <= end_capture (frequency g (g_p d 2%nat)) dt (g_p d i) (g_v d i) (com_accel nv d dv i) <= v_max s i - v_mar s i)%R).
Proof. exact cap_meaning. Qed.
Print Assumptions C44_meaning.
Theorem C44_inside : forall name nv dt g s (d : cdata Rnum) s', cap_made name nv dt g s -> (0 < g)%R -> (0 < dt)%R -> (0 < g_p d 2%nat)%R -> (forall i, i < 2 -> (0 <= v_mar s i)%R) ->
  @cap_step Rnum sqrt s (VCompute d) = Ret s' tt -> forall dv, sat (v_c s') dv ->
    forall i, i < 2 -> (v_min s i <= end_capture (frequency g (g_p d 2%nat)) dt (g_p d i) (g_v d i) (com_accel nv d dv i) <= v_max s i)%R.
Proof. exact cap_inside. Qed.
Print Assumptions C44_inside.
Theorem C44_limits_x : forall (s s' : capt Rnum) a b, @cap_step Rnum sqrt s (VLimX a b) = Ret s' tt -> v_min s' 0 = a /\ v_max s' 0 = b /\ v_min s' 1 = v_min s 1 /\ v_max s' 1 = v_max s 1 /\ v_mar s' = v_mar s.
Proof. exact cap_limits. Qed.
Print Assumptions C44_limits_x.
Theorem C44_limits_y : forall (s s' : capt Rnum) a b, @cap_step Rnum sqrt s (VLimY a b) = Ret s' tt -> v_min s' 1 = a /\ v_max s' 1 = b /\ v_min s' 0 = v_min s 0 /\ v_max s' 0 = v_max s 0 /\ v_mar s' = v_mar s.
Proof. exact cap_limits_y. Qed.
Print Assumptions C44_limits_y.
Theorem C44_rejects : forall (s : capt Rnum) (a b : R), (b < a)%R -> @cap_step Rnum sqrt s (@VLimX Rnum a b) = Exc s /\ @cap_step Rnum sqrt s (@VLimY Rnum a b) = Exc s.
Proof. exact cap_rejects. Qed.
Print Assumptions C44_rejects.
Theorem C44_initial : forall name nv (dt g : R) jk, let s0 := @cap_new Rnum name nv dt g jk in
  v_dt s0 = dt /\ v_g s0 = g /\ forall i, v_min s0 i = 0%R /\ v_max s0 i = 0%R /\ v_mar s0 i = 0%R.
Proof. exact cap_initial. Qed.
Print Assumptions C44_initial.
(** A robot with a 1 m high centre of mass: g = 1, dt = 1, so the frequency is 1. *)
Definition ex_com : cdata Rnum := @mkCd Rnum (fun i => if i =? 2 then 1%R else 0%R) (unit_k 0) (fun _ => 0%R) (fun i j => if i =? j then 1%R else 0%R).
Example C44_case : exists s s', cap_made "cap" 3 1 1 s /\ v_min s 0 = (-1)%R /\ v_max s 0 = 2%R /\ v_mar s 0 = (1 / 2)%R /\ @cap_step Rnum sqrt s (VCompute ex_com) = Ret s' tt /\
  sat (v_c s') (fun j => if j =? 0 then (-1)%R else 0%R) /\ ~ sat (v_c s') (fun _ => 0%R).
Proof.
  destruct (run (@cap_step Rnum sqrt) (@cap_new Rnum "cap" 3 1%R 1%R (fun _ => 0%R)) [@VLimX Rnum (-1)%R 2%R; @VLimY Rnum (-1)%R 1%R; @VMargin Rnum (1/2)%R (1/2)%R]) as [s|] eqn:E.
  2:{ exfalso. cbn [run cap_step] in E. assert (A : @nleb Rnum (-1)%R 2%R = true) by (apply Rleb_true; lra). assert (B : @nleb Rnum (-1)%R 1%R = true) by (apply Rleb_true; lra). rewrite A in E. cbn [after] in E. cbn [obind] in E. rewrite B in E. discriminate. }
  assert (M : cap_made "cap" 3 1 1 s) by (eexists; exact (run_reach _ _ _ _ E)).
  assert (F : v_min s 0 = (-1)%R /\ v_max s 0 = 2%R /\ v_mar s 0 = (1 / 2)%R /\ v_min s 1 = (-1)%R /\ v_max s 1 = 1%R /\ v_mar s 1 = (1 / 2)%R).
  { cbn [run cap_step] in E. assert (A : @nleb Rnum (-1)%R 2%R = true) by (apply Rleb_true; lra). assert (B : @nleb Rnum (-1)%R 1%R = true) by (apply Rleb_true; lra). rewrite A in E. cbn [after] in E. cbn [obind] in E. rewrite B in E. cbn in E. injection E as <-. cbn. auto 10. }
  destruct F as (F1 & F2 & F3 & F4 & F5 & F6). assert (Z : (0 < g_p ex_com 2%nat)%R) by (cbn; lra).
  destruct (cap_meaning "cap" 3 1 1 s ex_com M ltac:(lra) ltac:(lra) Z) as (s' & X & Y). exists s, s'.
  assert (W : frequency 1 (g_p ex_com 2) = 1%R) by (unfold frequency; cbn; replace (1 / 1)%R with 1%R by field; apply sqrt_1). rewrite W in Y.
  split; [exact M|]. split; [exact F1|]. split; [exact F2|]. split; [exact F3|]. split; [exact X|]. rewrite !Y. split.
  - intros i Hi. destruct i as [|[|i]]; [| |lia]; rewrite ?F1, ?F2, ?F3, ?F4, ?F5, ?F6; unfold end_capture, com_accel; cbn; lra.
  - intros H. specialize (H 0 ltac:(lia)). rewrite F1, F2, F3 in H. unfold end_capture, com_accel in H. cbn in H. lra.
Qed.

(** ** C65 margins and reported acceleration of the capture point task *)
Theorem C65_margin_unchecked : forall (s : capt Rnum) x y, exists s', @cap_step Rnum sqrt s (VMargin x y) = Ret s' tt /\ v_mar s' 0 = x /\ v_mar s' 1 = y /\ v_min s' = v_min s /\ v_max s' = v_max s.
Proof. exact cap_margin_free. Qed.
Print Assumptions C65_margin_unchecked.
Theorem C65_infeasible : forall name nv dt g s (d : cdata Rnum) s' i, cap_made name nv dt g s -> (0 < g)%R -> (0 < dt)%R -> (0 < g_p d 2%nat)%R -> i < 2 -> (v_max s i - v_min s i < 2 * v_mar s i)%R ->
  @cap_step Rnum sqrt s (VCompute d) = Ret s' tt -> forall dv, ~ sat (v_c s') dv.
Proof. exact cap_infeasible. Qed.
Print Assumptions C65_infeasible.
(** Both hypotheses meet: a margin of 1 on the limits [0, 0] of a new task. *)
Example C65_case : exists s s', cap_made "cap" 3 1 1 s /\ (v_max s 0 - v_min s 0 < 2 * v_mar s 0)%R /\ @cap_step Rnum sqrt s (VCompute ex_com) = Ret s' tt.
Proof.
  destruct (cap_margin_free (@cap_new Rnum "cap" 3 1%R 1%R (fun _ => 0%R)) 1%R 1%R) as (s & E & A & _ & C & D).
  assert (M : cap_made "cap" 3 1 1 s) by (exists (fun _ => 0%R); apply (reach_step _ _ _ _ (@VMargin Rnum 1%R 1%R) s (reach_init _ _ _)); [exact I|rewrite E; reflexivity]).
  destruct (cap_meaning "cap" 3 1 1 s ex_com M ltac:(lra) ltac:(lra) ltac:(cbn; lra)) as (s' & X & _). exists s, s'. split; [exact M|]. split; [rewrite A, C, D; cbn; lra|exact X].
Qed.
Theorem C65_acceleration_undefined : forall name nv dt g s dv, cap_made name nv dt g s -> cap_acc s dv = None.
Proof. exact cap_acc_undef. Qed.
Print Assumptions C65_acceleration_undefined.

(** ** C45 the force integral *)
Theorem C45_bounded : forall name cname (dt E l0 : R) (s : cft Rnum), (0 < l0)%R -> (0 <= dt)%R -> (0 <= E)%R ->
  reach (@cf_step Rnum) (calm E l0 dt) (@cf_new Rnum name cname dt) s -> forall i, i < 6 -> (Rabs (vget (r_int s) i) <= E / l0)%R.
Proof. exact cf_bounded. Qed.
Print Assumptions C45_bounded.
Theorem C45_constant_error : forall name cname (dt : R) (s : cft Rnum) B k, @cf_made Rnum name cname dt s -> sized6 s -> r_leak s <> 0%R -> exists s', computes k B s = Some s' /\
  forall i, vget (r_int s) i = 0%R -> vget (r_int s') i = (force_err s i / r_leak s * (1 - (1 - r_leak s * dt) ^ k))%R.
Proof. exact cf_closed. Qed.
Print Assumptions C45_constant_error.
Theorem C45_no_leak_grows : forall name cname (dt : R) (s : cft Rnum) B k, @cf_made Rnum name cname dt s -> sized6 s -> r_leak s = 0%R -> exists s', computes k B s = Some s' /\
  forall i, vget (r_int s) i = 0%R -> vget (r_int s') i = (INR k * (force_err s i * dt))%R.
Proof. exact cf_no_leak. Qed.
Print Assumptions C45_no_leak_grows.
Theorem C45_second_call : forall name cname (dt : R) (s s1 s2 : cft Rnum) B, @cf_made Rnum name cname dt s -> cf_step s (RCompute B) = Ret s1 tt -> cf_step s1 (RCompute B) = Ret s2 tt ->
  forall i, (vget (c_vec (r_c s2)) i - vget (c_vec (r_c s1)) i = vget (r_ki s) i * ((force_err s i - r_leak s * vget (r_int s) i) * dt))%R.
Proof. exact cf_twice. Qed.
Print Assumptions C45_second_call.
Theorem C45_repeatable_refuted : forall name cname B, exists (s s1 s2 : cft Rnum), @cf_made Rnum name cname 1%R s /\ cf_step s (RCompute B) = Ret s1 tt /\ cf_step s1 (RCompute B) = Ret s2 tt /\
  vget (c_vec (r_c s1)) 0 <> vget (c_vec (r_c s2)) 0.
Proof. exact cf_twice_refuted. Qed.
Print Assumptions C45_repeatable_refuted.
(** Any leak and force: such tasks exist, with zero integral. *)
Example C45_case : forall leak, exists s, @cf_made Rnum "f" "foot" 1%R s /\ sized6 s /\ r_leak s = leak /\ force_err s 2 = 5%R /\ vget (r_int s) 2 = 0%R.
Proof.
  intros leak. destruct (cf_ready "f" "foot" 1 2 3 4 leak (c6 5) eq_refl) as (s & M & H & _ & _ & _ & L & V & Z & I0). exists s. repeat (split; [assumption|]). unfold force_err. rewrite V, Z, I0. cbn. split; lra.
Qed.
(** A history of the bounded kind that does compute. *)
Example C45_bounded_case : exists s, reach (@cf_step Rnum) (calm 1 (1 / 20) 1) (@cf_new Rnum "f" "foot" 1%R) s /\ vget (r_int s) 0 = 1%R.
Proof.
  destruct (run (@cf_step Rnum) (@cf_new Rnum "f" "foot" 1%R) [RKp (c6 0); RKd (c6 0); RKi (c6 1); RRef (c6 1) zero6; RCompute (mzero 6 12)]) as [s|] eqn:E; [|discriminate].
  exists s. cbn [run] in E. split.
  - eapply (reach_step _ _ _ _ (RCompute (mzero 6 12))); [eapply (reach_step _ _ _ _ (RRef (c6 1) zero6)); [eapply (reach_step _ _ _ _ (RKi (c6 1))); [eapply (reach_step _ _ _ _ (RKd (c6 0))); [eapply (reach_step _ _ _ _ (RKp (c6 0))); [apply reach_init|exact I|reflexivity]|exact I|reflexivity]|exact I|reflexivity]|exact I|reflexivity]| |exact E].
    unfold calm. cbn [cf_new r_leak r_val r_ev]. unfold force_err. cbn. unfold Q2R. cbn. split; [lra|]. split; [lra|]. intros i _. rewrite Rminus_0_r, Rabs_R1. lra.
  - cbn in E. injection E as <-. cbn. lra.
Qed.

(** ** C66 the contact force constraint *)
Theorem C66_meaning : forall name cname (dt : R) (s : cft Rnum) (B : mat Rnum), @cf_made Rnum name cname dt s -> sized6 s -> exists s', cf_step s (RCompute B) = Ret s' tt /\
  (forall y, sat (r_c s') y <-> forall i, i < 6 -> rsum (mcols B) (fun j => mget B i j * y j)%R =
     (vget (r_val s) i + vget (r_kp s) i * (vget (r_val s) i - vget (r_ev s) i) + vget (r_kd s) i * (vget (r_der s) i - vget (r_ed s) i) + vget (r_ki s) i * vget (r_int s) i)%R) /\
  (forall i, vget (r_int s') i = (vget (r_int s) i + (vget (r_val s) i - vget (r_ev s) i - r_leak s * vget (r_int s) i) * dt)%R).
Proof. exact cf_meaning. Qed.
Print Assumptions C66_meaning.
Theorem C66_defined : forall (K : num) name cname (dt : K) s B, cf_made name cname dt s -> (cf_step s (RCompute B) <> Undef <-> sized6 s).
Proof. exact @cf_defined. Qed.
Print Assumptions C66_defined.
Theorem C66_fresh_undefined : forall (K : num) name cname (dt : K) B, cf_step (@cf_new K name cname dt) (RCompute B) = Undef.
Proof. exact @cf_fresh. Qed.
Print Assumptions C66_fresh_undefined.
Theorem C66_shape : forall (K : num) name cname (dt : K) s B s', cf_made name cname dt s -> cf_step s (RCompute B) = Ret s' tt ->
  mrows (c_mat (r_c s')) = mrows B /\ vlen (c_vec (r_c s')) = 6 /\ (cwf (mcols B) (r_c s') <-> mrows B = 6).
Proof. exact @cf_shape. Qed.
Print Assumptions C66_shape.
Theorem C66_missing_contact : forall (K : num) (s : cft K) names B, r_name s = "" \/ ~ In (r_name s) names -> cf_step s (RComputeIn names B) = Ret s tt.
Proof. exact @cf_missing. Qed.
Print Assumptions C66_missing_contact.
Theorem C66_present_contact : forall (K : num) (s : cft K) names B, r_name s <> "" -> In (r_name s) names -> cf_step s (RComputeIn names B) = cf_step s (RCompute B).
Proof. exact @cf_present. Qed.
Print Assumptions C66_present_contact.
(** Each setter stores its arguments and nothing else; compute changes no parameter. *)
Theorem C66_setters : forall (K : num) (s : cft K),
  (forall k, vlen k = 6 -> exists s', cf_step s (RKp k) = Ret s' tt /\ cf_rest s s' /\ cf_conf s' = (r_name s, (k, r_kd s, r_ki s), r_leak s, (r_val s, r_der s), (r_ev s, r_ed s))) /\
  (forall k, vlen k = 6 -> exists s', cf_step s (RKd k) = Ret s' tt /\ cf_rest s s' /\ cf_conf s' = (r_name s, (r_kp s, k, r_ki s), r_leak s, (r_val s, r_der s), (r_ev s, r_ed s))) /\
  (forall k, vlen k = 6 -> exists s', cf_step s (RKi k) = Ret s' tt /\ cf_rest s s' /\ cf_conf s' = (r_name s, (r_kp s, r_kd s, k), r_leak s, (r_val s, r_der s), (r_ev s, r_ed s))) /\
  (forall x, exists s', cf_step s (RLeak x) = Ret s' tt /\ cf_rest s s' /\ cf_conf s' = (r_name s, (r_kp s, r_kd s, r_ki s), x, (r_val s, r_der s), (r_ev s, r_ed s))) /\
  (forall n, exists s', cf_step s (RContact n) = Ret s' tt /\ cf_rest s s' /\ cf_conf s' = (n, (r_kp s, r_kd s, r_ki s), r_leak s, (r_val s, r_der s), (r_ev s, r_ed s))) /\
  (forall a b, exists s', cf_step s (RRef a b) = Ret s' tt /\ cf_rest s s' /\ cf_conf s' = (r_name s, (r_kp s, r_kd s, r_ki s), r_leak s, (a, b), (r_ev s, r_ed s))) /\
  (forall a b, exists s', cf_step s (RExt a b) = Ret s' tt /\ cf_rest s s' /\ cf_conf s' = (r_name s, (r_kp s, r_kd s, r_ki s), r_leak s, (r_val s, r_der s), (a, b))) /\
  (forall k, vlen k <> 6 -> cf_step s (RKp k) = Exc s /\ cf_step s (RKd k) = Exc s /\ cf_step s (RKi k) = Exc s) /\
  (forall B s', cf_step s (RCompute B) = Ret s' tt -> cf_conf s' = cf_conf s /\ r_dt s' = r_dt s).
Proof. exact @cf_setters. Qed.
Print Assumptions C66_setters.
Theorem C66_initial : forall name cname (dt : R), let s0 := @cf_new Rnum name cname dt in
  r_name s0 = cname /\ r_dt s0 = dt /\ r_leak s0 = (1 / 20)%R /\ vlen (r_int s0) = 6 /\ (forall i, vget (r_int s0) i = 0%R) /\
  (forall i, vget (r_val s0) i = 0%R /\ vget (r_der s0) i = 0%R /\ vget (r_ev s0) i = 0%R /\ vget (r_ed s0) i = 0%R).
Proof. exact cf_initial. Qed.
Print Assumptions C66_initial.
