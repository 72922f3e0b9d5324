(** What the biped of the exercises computes in one period, in terms of its weights, the two feet
    and the data of its tasks (exercizes/tsid_biped.py). *)
From Coq Require Import String List Arith Bool ZArith Lia Permutation Reals Lra.
From Verif Require Import Scalar Outcome Linalg Constraint Formulation ListUtil FormSpec FormDataSpec FormPhysSpec RSum FormInv FormInvB FormInvC FormOps FormSafe FormSafe2 FormContact FormPhys FormMain FormSolver FormCheck SoftTasks SoftPlan Walking WalkingSpec WalkingP WalkingQ BipedBook.
From Verif Require Solvers SolverSpec SolverSizes SolverMain.
Import ListNotations.
Open Scope string_scope.
Open Scope list_scope.
Open Scope nat_scope.
Local Notation rsum := (@nsum Rnum).
Local Notation six := Walking.six.

(** * Specification *)
(** [objs rf lf]: the feet on the ground; foot 0 is the right one, foot 1 the left one. [place]
    tells where the twelve forces of a foot are among the forces. *)
Section Spec.
Variables (C : conf Rnum) (nv na : nat) (fmin fmax : R) (on : list nat) (place : nat -> nat) (e : env Rnum).
Definition forces_of (o : nat) (x : nat -> R) (r : nat) : R := x (nv + place o + r).
(** Torques needed at the joints for the accelerations and forces [x]. *)
Definition torque_for (x : nat -> R) (i : nat) : R :=
  (rsum nv (fun j => mget (e_mass e) i j * x j) + vget (e_nle e) i
   - lsum (fun o => rsum 12 (fun r => jac e o r i * forces_of o x r)) on)%R.
(** What the biped may not violate. *)
Record possible (x : nat -> R) : Prop := mkPossible {
  po_base : forall i, i < nv - na -> torque_for x i = 0%R;
  po_friction : forall o, In o on -> let '(B, lb, ub) := e_cforce e o fmin fmax in in_holds B lb ub (forces_of o x);
  po_still : (w_contact C < 0)%R -> forall o, In o on -> eq_holds (fst (e_cmotion e o)) (snd (e_cmotion e o)) x;
  po_torque : (0 < w_torque_bounds C)%R -> sat (e_task e 6) (fun q => torque_for x (nv - na + q));
  po_joint : (0 < w_joint_bounds C)%R -> sat (e_task e 7) x }.
(** What it trades: tasks 0 com, 1 centre of pressure, 2 angular momentum, 3 posture, 4 left foot,
    5 right foot; then, for each foot on the ground, its motion and its reference force. *)
Definition foot_price (x : nat -> R) (o : nat) : R :=
  (Rmax 0 (w_contact C) * eq_gap (fst (e_cmotion e o)) (snd (e_cmotion e o)) x +
   w_forceRef C * eq_gap (fst (e_creg e o)) (snd (e_creg e o)) (forces_of o x))%R.
Definition price (x : nat -> R) : R :=
  (w_com C * gap (e_task e 0) x + w_cop C * gap (e_task e 1) (fun r => x (nv + r)%nat) + w_am C * gap (e_task e 2) x +
   w_posture C * gap (e_task e 3) x + w_foot C * gap (e_task e 4) x + w_foot C * gap (e_task e 5) x + lsum (foot_price x) on)%R.
Definition bulk (x : nat -> R) : R := rsum (nv + 12 * List.length on) (fun i => x i * x i)%R.
Definition best (r : R) (x : nat -> R) : Prop :=
  possible x /\ forall z, possible z -> (price x + r * bulk x <= price z + r * bulk z)%R.
End Spec.
(** The forces of two feet side by side, in either order. *)
Definition placed (on : list nat) (place : nat -> nat) : Prop :=
  match on with
  | [a; b] => (place a = 0 /\ place b = 12) \/ (place a = 12 /\ place b = 0)
  | _ => forall a, In a on -> place a = 0
  end.
(** computeProblemData left [s]; a solver after any history of its own, whose external solver is
    exact, reports OPTIMAL with [y]; its back-end adds [r] to the diagonal of the Hessian. *)
Definition answered (s : fstate Rnum) (r : R) (y : vec Rnum) : Prop :=
  exists cl0 cl1 b dbg' jk q ans x q',
    problem_of s [cl0; cl1] /\ SolverSizes.solver_state b dbg' q /\ SolverSpec.fits b (nVar s) [cl0; cl1] /\ SolverSpec.handled b ans /\
    Solvers.solve b dbg' jk q [cl0; cl1] ans x = Ret q' (Solvers.St_optimal, y) /\ exact_answer b q' ans x /\ r = SolverMain.solve_reg b.
(** The force task of the biped is the centre of pressure of all the forces: it is associated
    with no contact (task-cop-equality.cpp:42-45). *)
Definition whole (e : env Rnum) : Prop := forall id, e_assoc e id = "".

(** * Proofs *)
(** ** The tasks *)
Definition tasks_of (C : conf Rnum) : @ledger Rnum :=
  ([(0, "task-com", 1); (2, "task-am", 1); (3, "task-posture", 1); (4, "task-left-foot", 1); (5, "task-right-foot", 1)] ++
     (if (n0 <? w_joint_bounds C)%num then [(7, "task-joint-bounds", 0)] else []),
   [(1, "task-cop", 1)], if (n0 <? w_torque_bounds C)%num then [(6, "task-actuation-bounds", 0)] else [], [], []).

Section P.
Variables (dbg : bool) (C : conf Rnum) (nv na : nat) (M0 : mat Rnum) (H0 : vec Rnum) (fmin fmax : R) (nf nf' : vec Rnum -> R).
Local Notation step := (@Formulation.step Rnum dbg).
Local Notation x := (@six Rnum "contact_rfoot" fmin fmax nf).
Local Notation y := (@six Rnum "contact_lfoot" fmin fmax nf').
Hypothesis Hrob : FormMain.robot_ok nv M0 H0.
Lemma x_six : is_six x "contact_rfoot". Proof. repeat split. Qed.
Lemma y_six : is_six y "contact_lfoot". Proof. repeat split. Qed.
Local Notation fit := (fit dbg whole C nv na M0 H0 x y).
Local Notation up := (up dbg whole C nv na M0 H0 x y).

Lemma foot_calm o : calm (add_foot C o).
Proof. unfold add_foot. destruct ((n0 <=? w_contact C)%num); exact I. Qed.
Lemma foot_write o (b : @ledger Rnum) : write (add_foot C o) b = b.
Proof. destruct b as [[[[? ?] ?] ?] ?]. unfold add_foot. destruct ((n0 <=? w_contact C)%num); reflexivity. Qed.
Lemma calls_book (l : list (fop Rnum)) : forall s s' : fstate Rnum, Forall calm l -> f_trans s = [] -> calls dbg s l = Some s' -> book s' = fold_left (fun b o => write o b) l (book s).
Proof.
  induction l as [|o l IH]; intros s s' Hc Ht H; cbn [calls fold_left] in *; [injection H as <-; reflexivity|].
  destruct (step s o) as [s1 r| |] eqn:E; try discriminate. apply Forall_cons_iff in Hc. destruct Hc as [Hc1 Hc].
  assert (B := step_book dbg s o s1 r Hc1 Ht E). rewrite <- B. apply IH; auto.
  assert (T : snd (book s1) = snd (write o (book s))) by (rewrite B; reflexivity). cbn in T.
  change (f_trans s1 = []). cbn [book snd] in T. rewrite T. unfold book. rewrite Ht. destruct o; reflexivity.
Qed.
Lemma start_book e0 e1 (s : fstate Rnum) : calls dbg (init nv na M0 H0) (start_calls C nv na x y e0 e1) = Some s -> book s = tasks_of C.
Proof.
  intros H. apply calls_book in H; [|unfold start_calls; rewrite !Forall_app; repeat split; [repeat constructor; apply foot_calm| |]|reflexivity].
  - rewrite H. unfold start_calls, tasks_of. rewrite !fold_left_app. cbn [fold_left]. rewrite !foot_write.
    destruct ((n0 <? w_torque_bounds C)%num), ((n0 <? w_joint_bounds C)%num); reflexivity.
  - destruct ((n0 <? w_torque_bounds C)%num); repeat constructor.
  - destruct ((n0 <? w_joint_bounds C)%num); repeat constructor.
Qed.
Definition kept (b : biped Rnum) : Prop := fit b /\ book (b_f b) = tasks_of C.
Lemma kept_step b o : kept b -> data_rule b o -> flag_rule b o -> bseen whole o -> exists b' r, bstep dbg C b o = Ret b' r /\ kept b'.
Proof.
  intros [F B] Hd Hf Hs. destruct (fit_step dbg whole C nv na M0 H0 x y Hrob x_six y_six b o F Hd Hf Hs) as (b' & r & E & F').
  exists b', r. split; [exact E|]. split; [exact F'|].
  assert (T : f_trans (b_f b) = []) by (destruct F as (cs & q0 & q1 & D & _); exact (d_trans _ _ _ _ _ _ _ _ _ _ _ D)).
  assert (Q : exists fo, calm fo /\ write fo (book (b_f b)) = book (b_f b) /\ exists r', step (b_f b) fo = Ret (b_f b') r').
  { destruct o; cbn [bstep] in E; unfold onb in E; cbn in Hf;
      match type of E with match Formulation.step _ _ ?f with _ => _ end = _ => exists f; destruct (Formulation.step dbg (b_f b) f) as [s1 r1| |] eqn:G; try discriminate end;
      injection E as <- _; cbn [b_f]; (split; [|split; [|eexists; exact G || reflexivity]]); try exact I; try apply foot_calm; try apply foot_write; cbn; try apply Hf;
      destruct (book (b_f b)) as [[[[? ?] ?] ?] ?]; reflexivity. }
  destruct Q as (fo & Q1 & Q2 & r' & Q3). rewrite (step_book dbg _ _ _ _ Q1 T Q3), Q2. exact B.
Qed.
Lemma kept_start e0 e1 b0 : conf_ok C -> sizes_ok nv e0 -> sizes_ok nv e1 -> whole e0 -> whole e1 -> biped_new dbg C nv na M0 H0 x y e0 e1 = Some b0 -> kept b0.
Proof.
  intros Hc S0 S1 W0 W1 E. destruct (start_ok dbg whole C nv na M0 H0 x y Hrob x_six y_six e0 e1 Hc S0 S1 W0 W1) as (b & E' & _ & _ & F).
  assert (b = b0) by congruence. subst b. split; [exact F|]. unfold biped_new in E. destruct (calls _ _ _) as [s|] eqn:Q; [|discriminate]. injection E as <-. exact (start_book e0 e1 s Q).
Qed.
Lemma kept_reach e0 e1 b0 b : conf_ok C -> sizes_ok nv e0 -> sizes_ok nv e1 -> whole e0 -> whole e1 -> biped_new dbg C nv na M0 H0 x y e0 e1 = Some b0 ->
  reach (bstep dbg C) (fun b o => data_rule b o /\ flag_rule b o /\ bseen whole o) b0 b -> kept b.
Proof.
  intros Hc S0 S1 W0 W1 E. induction 1 as [|b1 o b2 _ IH (P1 & P2 & P3) A]; [exact (kept_start e0 e1 b0 Hc S0 S1 W0 W1 E)|].
  destruct (kept_step b1 o IH P1 P2 P3) as (b' & r & E' & F). rewrite E' in A. cbn in A. injection A as <-. exact F.
Qed.

(** ** Contacts, weights and hard constraints of a description *)
Section S.
Variables (rf lf : bool) (s : fstate Rnum).
Hypothesis U : up rf lf s.
Hypothesis Bk : book s = tasks_of C.
Definition place_in (o : nat) : nat := match find (fun c => cl_obj c =? o) (f_contacts s) with Some c => cl_index c | None => 0 end.
Lemma up_inv : invA s /\ invB s /\ f_nv s = nv /\ f_nu s = nv - na /\ f_objs s = [x; y] /\ Permutation (contact_objs s) (objs rf lf) /\ reach step (assoc_good dbg (fun _ => "")) (init nv na M0 H0) s.
Proof.
  destruct U as (cs & q0 & q1 & D & Pc & _). destruct (desc_inv dbg whole nv na M0 H0 Hrob _ _ _ _ _ D) as (A & B & _).
  assert (Hh := d_hist _ _ _ _ _ _ _ _ _ _ _ D). destruct (dims_reach dbg _ _ _ _ _ _ Hh) as (Dv & Du).
  split; [exact A|]. split; [exact B|]. split; [exact Dv|]. split; [exact Du|]. split; [exact (d_objs _ _ _ _ _ _ _ _ _ _ _ D)|].
  split; [rewrite (d_cs _ _ _ _ _ _ _ _ _ _ _ D); exact Pc|]. revert Hh. apply reach_weaken. intros z o (G & _ & S). split; [exact G|]. destruct o; try exact I. exact S.
Qed.
Lemma objs_nodup : NoDup (contact_objs s).
Proof. destruct up_inv as (_ & _ & _ & _ & _ & P & _). eapply Permutation_NoDup; [symmetry; exact P|]. unfold objs. destruct rf, lf; repeat constructor; cbn; intuition discriminate. Qed.
Lemma place_at c : In c (f_contacts s) -> place_in (cl_obj c) = cl_index c.
Proof.
  intros Hc. assert (N := objs_nodup). unfold place_in. unfold contact_objs in N. revert Hc N. induction (f_contacts s) as [|d l IH]; [intros []|].
  intros Hc N. cbn in N. apply NoDup_cons_iff in N. destruct N as [N1 N]. cbn [find]. destruct (Nat.eqb_spec (cl_obj d) (cl_obj c)) as [Q|Q].
  - destruct Hc as [->|Hc]; [reflexivity|]. exfalso. apply N1. rewrite Q. apply in_map, Hc.
  - destruct Hc as [->|Hc]; [contradiction|]. apply IH; assumption.
Qed.
Lemma con_obj c : In c (f_contacts s) -> In (cl_obj c) (objs rf lf).
Proof. intros Hc. destruct up_inv as (_ & _ & _ & _ & _ & P & _). eapply Permutation_in; [exact P|]. unfold contact_objs. apply in_map, Hc. Qed.
Lemma obj_con o : In o (objs rf lf) -> exists c, In c (f_contacts s) /\ cl_obj c = o.
Proof. intros Ho. destruct up_inv as (_ & _ & _ & _ & _ & P & _). apply (Permutation_in _ (Permutation_sym P)) in Ho. apply in_map_iff in Ho. destruct Ho as (c & E & Hc). eauto. Qed.
Definition foot_obj (o : nat) : cobj Rnum := if o =? 0 then x else y.
Lemma con_foot c : In c (f_contacts s) -> nth_error (f_objs s) (cl_obj c) = Some (foot_obj (cl_obj c)).
Proof.
  intros Hc. destruct up_inv as (_ & _ & _ & _ & O & _). rewrite O. assert (H := con_obj c Hc). unfold objs in H.
  assert (Q : cl_obj c = 0 \/ cl_obj c = 1) by (destruct rf, lf; cbn in H; intuition). destruct Q as [-> | ->]; reflexivity.
Qed.
Lemma con_facts c : In c (f_contacts s) -> cl_nforce s c = 12 /\ cl_name s c = (if cl_obj c =? 0 then "contact_rfoot" else "contact_lfoot").
Proof. intros Hc. unfold cl_nforce, cl_name, cobj_at. rewrite (con_foot c Hc). unfold foot_obj. destruct (cl_obj c =? 0); split; reflexivity. Qed.
Lemma con_sum (f : clevel -> R) (g : nat -> R) : (forall c, In c (f_contacts s) -> f c = g (cl_obj c)) -> lsum f (f_contacts s) = lsum g (objs rf lf).
Proof.
  intros H. destruct up_inv as (_ & _ & _ & _ & _ & P & _). rewrite <- (lsum_perm g _ _ P). unfold contact_objs. rewrite lsum_map. apply lsum_ext, H.
Qed.
Lemma con_placed : placed (objs rf lf) place_in.
Proof.
  destruct up_inv as (A & _ & _ & _ & _ & P & _). assert (T := ia_tile _ A). assert (F := con_facts). assert (Q := place_at). unfold slots in T. unfold contact_objs in P. revert P T F Q. generalize place_in. intros pl.
  destruct (f_contacts s) as [|c [|d [|? l]]].
  - intros P _ _ _. apply Permutation_nil in P. rewrite P. intros a [].
  - intros P T F Q. cbn in P. apply Permutation_length_1_inv in P. rewrite P. cbn in T. intros a [<-|[]]. rewrite Q by (left; reflexivity). apply T.
  - intros P T F Q. cbn in T. destruct T as (T1 & T2 & _). destruct (F c (or_introl eq_refl)) as [N _]. rewrite N in T2.
    assert (Q1 := Q c (or_introl eq_refl)). assert (Q2 := Q d (or_intror (or_introl eq_refl))). cbn in P. apply Permutation_length_2_inv in P. destruct P as [-> | ->]; cbn; lia.
  - intros P _ _ _. apply Permutation_length in P. cbn in P. unfold objs in P. destruct rf, lf; cbn in P; lia.
Qed.
(** Entries by name. *)
Definition weigh_in (n : string) (q : list (R * option (string * ckind * nat))) : R := lsum (fun it => if String.eqb (@iname Rnum it) n then fst it else 0%R) q.
Lemma level_item k (en : Rnum * nat) : In en (concat (f_hqp s)) -> named k (deref s en) = String.eqb (@iname Rnum (fst en, info s (snd en))) k /\ entry_name (deref s en) = Some (@iname Rnum (fst en, info s (snd en))).
Proof.
  intros He. destruct up_inv as (A & _). assert (Fc := ia_cols _ A). rewrite Forall_forall in Fc. destruct (Fc _ He) as (n & kd & r & E).
  assert (E' := E). apply nth_shape in E'. destruct E' as (c & Hc & Sh). unfold shape in Sh. injection Sh as Sn _ _ _.
  unfold named, entry_name, deref, iname, info. cbn [snd fst]. rewrite E, Hc. cbn. rewrite Sn. auto.
Qed.
Lemma weight_of n : soft_weight s n = weigh_in n (map (@lab Rnum) (soft C (feet rf lf))).
Proof.
  destruct U as (cs & q0 & q1 & D & _ & _ & P1). unfold weigh_in. rewrite <- (lsum_perm _ _ _ P1).
  assert (I := d_items _ _ _ _ _ _ _ _ _ _ _ D). assert (L := level_item n). unfold items in I. unfold soft_weight, hqp.
  destruct (f_hqp s) as [|l0 [|l1 [|? ?]]]; try discriminate. cbn [map] in I. injection I as _ <-. cbn [map nth]. rewrite !lsum_map. apply lsum_ext. intros en He.
  destruct (L en) as [-> _]; [cbn; rewrite app_nil_r; apply in_or_app; right; exact He|]. reflexivity.
Qed.
Lemma hard_has c : In c (f_contacts s) -> hard_motion s c <-> (n0 <=? w_contact C)%num = false.
Proof.
  intros Hc. destruct (con_facts c Hc) as [_ Nm]. assert (Oc := con_obj c Hc). unfold hard_motion. rewrite Nm.
  destruct U as (cs & q0 & q1 & D & _ & P0 & _). assert (I := d_items _ _ _ _ _ _ _ _ _ _ _ D). assert (L := level_item "").
  assert (Q : forall n, (exists en, In en (nth 0 (hqp s) []) /\ entry_name en = Some n) <-> In n (map (@iname Rnum) q0)).
  { intros n. unfold items in I. unfold hqp. destruct (f_hqp s) as [|l0 [|l1 [|? ?]]]; try discriminate. cbn [map] in I. injection I as <- _. cbn [map nth]. rewrite map_map, in_map_iff. split.
    - intros (en & H1 & H2). apply in_map_iff in H1. destruct H1 as (a & <- & Ha). exists a. split; [|exact Ha].
      destruct (L a) as [_ E]; [cbn; apply in_or_app; left; exact Ha|]. rewrite H2 in E. injection E as E. symmetry. exact E.
    - intros (a & <- & Ha). exists (deref s a). split; [apply in_map, Ha|]. apply L. cbn. apply in_or_app. left. exact Ha. }
  rewrite Q. rewrite (Permutation_in' eq_refl (Permutation_map (@iname Rnum) P0)). clear Q P0 I L D. unfold objs in Oc. unfold hard, foot_hard, feet.
  destruct ((n0 <=? w_contact C)%num), ((n0 <? w_torque_bounds C)%num), ((n0 <? w_joint_bounds C)%num), rf, lf; cbn in Oc; intuition (try discriminate);
    repeat match goal with E : _ = cl_obj c |- _ => rewrite <- E in *; clear E end; cbn in *; intuition (try discriminate).
Qed.

(** ** The hard constraints and the cost *)
Lemma ltb_pos (w : R) : ((n0 : Rnum) <? w)%num = true <-> (0 < w)%R.
Proof. exact (Rltb_true 0 w). Qed.
Lemma leb_neg (w : R) : ((n0 : Rnum) <=? w)%num = false <-> (w < 0)%R.
Proof. exact (Rleb_false 0 w). Qed.
Lemma book_facts : map entry_of (f_motions s) = fst (fst (fst (fst (tasks_of C)))) /\ map entry_of (f_forces s) = [(1, "task-cop", 1)] /\
  map entry_of (f_acts s) = snd (fst (fst (tasks_of C))) /\ f_meas s = [].
Proof. unfold book, tasks_of in *. injection Bk as B1 B2 B3 B4 B5. repeat split; assumption. Qed.
Lemma entry_sum (f : tlevel -> R) (g : nat * string * nat -> R) l : (forall t, f t = g (entry_of t)) -> lsum f l = lsum g (map entry_of l).
Proof. intros H. rewrite lsum_map. apply lsum_ext. intros t _. apply H. Qed.
Lemma entry_in l en : In en (map entry_of l) -> exists t, In t l /\ tl_task t = fst (fst en) /\ tl_name t = snd (fst en) /\ tl_prio t = snd en.
Proof. intros H. apply in_map_iff in H. destruct H as (t & <- & Ht). exists t. auto. Qed.
Variable e : env Rnum.
Hypothesis We : whole e.
Local Notation on := (objs rf lf).
Local Notation place := place_in.
Lemma force_at c z r : In c (f_contacts s) -> force_of s c z r = forces_of nv place (cl_obj c) z r.
Proof. intros Hc. destruct up_inv as (_ & _ & N & _). unfold force_of, forces_of. rewrite N, (place_at c Hc). reflexivity. Qed.
Lemma torque_at z i : needed_torque s e z i = torque_for nv on place e z i.
Proof.
  destruct up_inv as (_ & _ & N & _). destruct book_facts as (_ & _ & _ & Me). unfold needed_torque, torque_for, meas_torque, contact_torque. rewrite Me, N. change (lsum _ []) with 0%R.
  rewrite (con_sum _ (fun o => rsum 12 (fun r => jac e o r i * forces_of nv place o z r))%R).
  - ring.
  - intros c Hc. destruct (con_facts c Hc) as [-> _]. apply rsum_ext. intros r _. rewrite (force_at c z r Hc). reflexivity.
Qed.
Lemma holds_ext A b z z' : (forall r, z r = z' r) -> eq_holds A b z -> eq_holds A b z'.
Proof. intros H G i Hi. rewrite <- (G i Hi). apply rsum_ext. intros j _. rewrite H. reflexivity. Qed.
Lemma in_ext A lb ub z z' : (forall r, z r = z' r) -> in_holds A lb ub z -> in_holds A lb ub z'.
Proof. intros H G i Hi. rewrite (rsum_ext _ (fun j => mget A i j * z' j)%R (fun j => mget A i j * z j)%R) by (intros j _; rewrite H; reflexivity). exact (G i Hi). Qed.
Lemma sat_ext c z z' : (forall r, z r = z' r) -> sat c z -> sat c z'.
Proof.
  intros H. assert (L : forall i, lhs c z i = lhs c z' i).
  { intros i. unfold lhs. destruct (c_kind c); try apply H; apply rsum_ext; intros j _; rewrite H; reflexivity. }
  unfold sat. destruct (c_kind c); intros G i Hi; rewrite <- L; auto.
Qed.
Lemma gap_ext A b z z' : (forall r, z r = z' r) -> eq_gap A b z = eq_gap A b z'.
Proof. intros H. unfold eq_gap. apply rsum_ext. intros i _. rewrite (rsum_ext _ (fun j => mget A i j * z j)%R (fun j => mget A i j * z' j)%R) by (intros j _; rewrite H; reflexivity). reflexivity. Qed.
Lemma physical_possible z : physical s e z <-> possible C nv na fmin fmax on place e z.
Proof.
  destruct up_inv as (_ & _ & N & Nu & _ & P & _). destruct book_facts as (Bm & Bf & Ba & _). split.
  - intros [p1 p2 p3 p4 p5 p6]. constructor.
    + intros i Hi. rewrite <- torque_at. apply p1. rewrite Nu. exact Hi.
    + intros o Ho. destruct (obj_con o Ho) as (c & Hc & <-). assert (F := p3 c _ Hc (con_foot c Hc)).
      assert (Q : co_fmin (foot_obj (cl_obj c)) = fmin /\ co_fmax (foot_obj (cl_obj c)) = fmax) by (unfold foot_obj; destruct (cl_obj c =? 0); split; reflexivity).
      destruct Q as [Q1 Q2]. rewrite Q1, Q2 in F. destruct (e_cforce e (cl_obj c) fmin fmax) as [[B lb] ub]. revert F. apply in_ext. intros r. apply force_at, Hc.
    + intros W o Ho. destruct (obj_con o Ho) as (c & Hc & <-). apply p2; [exact Hc|]. apply hard_has; [exact Hc|]. apply leb_neg, W.
    + intros W. apply ltb_pos in W. unfold tasks_of in Ba. cbn [fst snd] in Ba. rewrite W in Ba. destruct (entry_in (f_acts s) (6, "task-actuation-bounds", 0)) as (t & Ht & T1 & _ & T3); [rewrite Ba; left; reflexivity|].
      assert (F := p6 t Ht T3). rewrite T1 in F. cbn in F. revert F. apply sat_ext. intros q. rewrite Nu. apply torque_at.
    + intros W. apply ltb_pos in W. unfold tasks_of in Bm. cbn [fst snd] in Bm. rewrite W in Bm. destruct (entry_in (f_motions s) (7, "task-joint-bounds", 0)) as (t & Ht & T1 & _ & T3); [rewrite Bm; cbn; auto 10|].
      assert (F := p4 t Ht T3). rewrite T1 in F. exact F.
  - intros [p1 p2 p3 p4 p5]. constructor.
    + intros i Hi. rewrite torque_at. apply p1. rewrite <- Nu. exact Hi.
    + intros c Hc Hm. apply p3; [|apply con_obj, Hc]. apply leb_neg. apply (hard_has c Hc). exact Hm.
    + intros c o Hc Ho. rewrite (con_foot c Hc) in Ho. injection Ho as <-. assert (F := p2 _ (con_obj c Hc)).
      assert (Q : co_fmin (foot_obj (cl_obj c)) = fmin /\ co_fmax (foot_obj (cl_obj c)) = fmax) by (unfold foot_obj; destruct (cl_obj c =? 0); split; reflexivity).
      destruct Q as [Q1 Q2]. rewrite Q1, Q2. destruct (e_cforce e (cl_obj c) fmin fmax) as [[B lb] ub]. revert F. apply in_ext. intros r. symmetry. apply force_at, Hc.
    + intros t Ht T0. assert (I := in_map entry_of _ _ Ht). rewrite Bm in I. unfold tasks_of in I. cbn [fst snd] in I. unfold entry_of in I. rewrite T0 in I. apply in_app_iff in I.
      destruct I as [I|I]; [cbn in I; intuition discriminate|]. destruct ((n0 <? w_joint_bounds C)%num) eqn:W; [|destruct I]. destruct I as [I|[]]. injection I as <- _. apply p5. apply ltb_pos, W.
    + intros t Ht T0. assert (I := in_map entry_of _ _ Ht). rewrite Bf in I. unfold entry_of in I. rewrite T0 in I. cbn in I. intuition discriminate.
    + intros t Ht T0. assert (I := in_map entry_of _ _ Ht). rewrite Ba in I. unfold tasks_of in I. cbn [fst snd] in I. unfold entry_of in I.
      destruct ((n0 <? w_torque_bounds C)%num) eqn:W; [|destruct I]. destruct I as [I|[]]. injection I as <- _ _. apply ltb_pos in W. specialize (p4 W). revert p4. apply sat_ext. intros q. rewrite Nu. symmetry. apply torque_at.
Qed.
Lemma weights_by_name :
  soft_weight s "task-com" = w_com C /\ soft_weight s "task-cop" = w_cop C /\ soft_weight s "task-am" = w_am C /\ soft_weight s "task-posture" = w_posture C /\
  soft_weight s "task-left-foot" = w_foot C /\ soft_weight s "task-right-foot" = w_foot C /\ soft_weight s "task-joint-bounds" = 0%R /\ soft_weight s "task-actuation-bounds" = 0%R /\
  (forall c, In c (f_contacts s) -> soft_weight s (cl_name s c ++ "_motion_task") = Rmax 0 (w_contact C) /\ soft_weight s (cl_name s c ++ "_force_reg_task") = w_forceRef C).
Proof.
  assert (X : forall a, ((n0 : Rnum) <=? w_contact C)%num = a -> Rmax 0 (w_contact C) = (if a then (w_contact C : R) else 0)%R).
  { intros a H. unfold Rmax. destruct (Rle_dec 0 (w_contact C)) as [L|L].
    - destruct a; [reflexivity|]. exfalso. apply leb_neg in H. lra.
    - destruct a; [|reflexivity]. exfalso. apply L. apply Rleb_true, H. }
  rewrite !weight_of. unfold weigh_in, soft, foot_soft, feet.
  assert (Y : forall c, In c (f_contacts s) -> (rf = true /\ cl_name s c = "contact_rfoot") \/ (lf = true /\ cl_name s c = "contact_lfoot")).
  { intros c Hc. destruct (con_facts c Hc) as [_ Nm]. assert (Oc := con_obj c Hc). unfold objs in Oc. rewrite Nm. destruct rf, lf; cbn in Oc; intuition; match goal with E : _ = cl_obj c |- _ => rewrite <- E end; auto. }
  repeat match goal with |- _ /\ _ => split end.
  1-8: destruct ((n0 <=? w_contact C)%num), rf, lf; cbn; ring.
  intros c Hc. rewrite !weight_of, (X _ eq_refl). unfold weigh_in, soft, foot_soft, feet.
  destruct (Y c Hc) as [[R1 ->]|[R1 ->]]; rewrite R1; destruct ((n0 <=? w_contact C)%num), rf, lf; try discriminate; cbn; split; ring.
Qed.
Lemma cost_price z : soft_cost s e z = price C nv on place e z.
Proof.
  destruct up_inv as (_ & _ & N & _). destruct book_facts as (Bm & Bf & Ba & _). destruct weights_by_name as (W0 & W1 & W2 & W3 & W4 & W5 & W6 & W7 & W8).
  unfold soft_cost, cost_with, price.
  rewrite (entry_sum (motion_cost (soft_weight s) e z) (fun en => soft_weight s (snd (fst en)) * gap (e_task e (fst (fst en))) z)%R) by reflexivity.
  rewrite (entry_sum (force_cost (soft_weight s) s e z) (fun en => soft_weight s (snd (fst en)) * gap (e_task e (fst (fst en))) (fun r => z (nv + r)%nat))%R) by (intros t; unfold force_cost; rewrite We; unfold force_slot; cbn [String.eqb fst]; rewrite N; reflexivity).
  rewrite (entry_sum (act_cost (soft_weight s) s e z) (fun en => soft_weight s (snd (fst en)) * gap (e_task e (fst (fst en))) (fun q => needed_torque s e z (f_nu s + q)%nat))%R) by reflexivity.
  rewrite (con_sum (contact_cost (soft_weight s) s e z) (foot_price C nv place e z)).
  2: { intros c Hc. unfold contact_cost, foot_price. destruct (W8 c Hc) as [-> ->]. rewrite (gap_ext _ _ (force_of s c z) (forces_of nv place (cl_obj c) z)) by (intros r; apply force_at, Hc). reflexivity. }
  rewrite Bm, Bf, Ba. unfold tasks_of. cbn [fst snd].
  destruct ((n0 <? w_torque_bounds C)%num), ((n0 <? w_joint_bounds C)%num); cbn [app]; rewrite !lsum_cons; cbn [fst snd]; rewrite W0, W1, W2, W3, W4, W5, ?W6, ?W7; change (lsum _ []) with 0%R; ring.
Qed.
Lemma size_bulk z : size_of s z = bulk nv on z.
Proof.
  destruct (up_stands dbg whole C nv na M0 H0 x y Hrob x_six y_six rf lf s U) as (_ & Nv & _). unfold size_of, bulk. rewrite Nv. f_equal. unfold objs, count. destruct rf, lf; reflexivity.
Qed.
End S.
End P.
