(** The command of the exercise biped in one period, and the part of the foot tasks while the foot
    is on the ground (exercizes/tsid_biped.py). *)
From Coq Require Import String List Arith Bool ZArith Lia Permutation Reals Lra.
From Verif Require Import Scalar Outcome Linalg Constraint Formulation ListUtil FormSpec FormDataSpec FormPhysSpec RSum FormInv FormInvB FormInvC FormOps FormSafe FormSafe2 FormContact FormHist FormDecode FormPhys FormMain FormSolver FormCheck SoftTasks SoftPlan Walking WalkingSpec WalkingP WalkingQ BipedBook BipedPlan.
From Verif Require Solvers SolverSpec SolverSizes SolverMain.
Import ListNotations.
Open Scope string_scope.
Open Scope list_scope.
Open Scope nat_scope.
Local Notation rsum := (@nsum Rnum).

(** * Specification *)
Definition foot_name (o : nat) : string := if o =? 0 then "contact_rfoot" else "contact_lfoot".
(** What the getters of the formulation answer for the solution [y]. *)
Definition reads (nv na : nat) (on : list nat) (place : nat -> nat) (e : env Rnum) (y : vec Rnum) (g : getter) (v : vec Rnum) : Prop :=
  match g with
  | GAcc => vlen v = nv /\ forall j, j < nv -> vget v j = vget y j
  | GForce => vlen v = 12 * List.length on /\ forall j, j < 12 * List.length on -> vget v j = vget y (nv + j)
  | GTau => vlen v = nv - (nv - na) /\ forall q, q < nv - (nv - na) -> vget v q = torque_for nv on place e (vget y) (nv - na + q)
  | GForceOf n => forall o, In o on -> n = foot_name o -> vlen v = 12 /\ forall j, j < 12 -> vget v j = forces_of nv place o (vget y) j
  end.

(** * Proofs *)
Section B.
Variables (dbg : bool) (C : conf Rnum) (nv na : nat) (M0 : mat Rnum) (H0 : vec Rnum) (fmin fmax : R) (nf nf' : vec Rnum -> R).
Local Notation step := (@Formulation.step Rnum dbg).
Local Notation x := (@six Rnum "contact_rfoot" fmin fmax nf).
Local Notation y := (@six Rnum "contact_lfoot" fmin fmax nf').
Hypothesis Hrob : FormMain.robot_ok nv M0 H0.
Hypothesis Hc : conf_ok C.
Variables (b b' : biped Rnum) (t : Rnum) (e : env Rnum) (out : fout Rnum).
Hypothesis now : kept dbg C nv na M0 H0 fmin fmax nf nf' b.
Hypothesis Hd : data_rule b (Compute t e).
Hypothesis We : whole e.
Hypothesis Es : bstep dbg C b (Compute t e) = Ret b' out.
Local Notation on := (objs (b_rf b) (b_lf b)).
Local Notation place := (place_in (b_f b')).

Lemma after : up dbg whole C nv na M0 H0 x y (b_rf b) (b_lf b) (b_f b') /\ book (b_f b') = tasks_of C /\ step (b_f b) (OCompute t e) = Ret (b_f b') OutUnit /\
  reach step (assoc_good dbg (fun _ => "")) (init nv na M0 H0) (b_f b) /\ assoc_good dbg (fun _ => "") (b_f b) (OCompute t e).
Proof.
  destruct (kept_step dbg C nv na M0 H0 fmin fmax nf nf' Hrob b (Compute t e) now Hd I We) as (b2 & r2 & E2 & F2 & B2).
  rewrite Es in E2. injection E2 as <- <-. unfold fit in F2.
  cbn [bstep] in Es. destruct (step (b_f b) (OCompute t e)) as [s1 r1| |] eqn:G; try discriminate. cbn [onb] in Es. injection Es as <- <-. cbn [b_f b_rf b_lf fst snd] in *.
  destruct now as [(cs & q0 & q1 & D & P) B].
  assert (U : up dbg whole C nv na M0 H0 x y (b_rf b) (b_lf b) (b_f b)) by (exists cs, q0, q1; auto).
  split; [exact F2|]. split; [exact B2|]. split.
  - assert (T := d_trans _ _ _ _ _ _ _ _ _ _ _ D). destruct (desc_compute dbg whole nv na M0 H0 Hrob _ _ _ _ _ t e D Hd We) as (s2 & E2 & _). rewrite G in E2. injection E2 as <- ->. reflexivity.
  - split; [apply (up_inv dbg C nv na M0 H0 fmin fmax nf nf' Hrob (b_rf b) (b_lf b) (b_f b) U)|]. assert (T := d_trans _ _ _ _ _ _ _ _ _ _ _ D).
    split; [split; [exact I|]|exact We]. cbn. split.
    + intros _ c Hc'. rewrite T in Hc'. contradiction.
    + intros s2. rewrite T. cbn. intros X. injection X as <-. apply env_ok_time. exact Hd.
Qed.
Lemma as_planned r v : answered (b_f b') r v -> planned dbg nv na M0 H0 (fun _ => "") e (b_f b') r v.
Proof.
  intros (cl0 & cl1 & bk & dbg' & jk & q & ans & z & q' & A). destruct after as (_ & _ & St & Rc & Ag). split; [exact Hrob|].
  exists (b_f b), t, cl0, cl1, bk, dbg', jk, q, ans, z, q'. split; [exact Rc|]. split; [exact Ag|]. split; [exact St|]. exact A.
Qed.
Lemma nvar_is : nVar (b_f b') = nv + 12 * List.length on.
Proof.
  destruct after as (U & _). destruct (up_stands dbg whole C nv na M0 H0 x y Hrob (x_six _ _ _) (y_six _ _ _) _ _ _ U) as (_ & Nv & _). rewrite Nv. unfold objs, count. destruct (b_rf b), (b_lf b); reflexivity.
Qed.
Lemma is_best r v : answered (b_f b') r v -> best C nv na fmin fmax on place e r (vget v).
Proof.
  intros A. destruct (plan_best _ _ _ _ _ _ _ _ _ _ (as_planned r v A)) as [Ph Mi]. destruct after as (U & B & _).
  assert (Pp := physical_possible dbg C nv na M0 H0 fmin fmax nf nf' Hrob _ _ _ U B e).
  assert (Cp := cost_price dbg C nv na M0 H0 fmin fmax nf nf' Hrob _ _ _ U B e We). assert (Sb := size_bulk dbg C nv na M0 H0 fmin fmax nf nf' Hrob _ _ _ U).
  split; [apply Pp, Ph|]. intros z Hz. rewrite <- !Cp, <- !Sb. apply Mi, Pp, Hz.
Qed.
Lemma weights_fine : (0 <= w_forceRef C)%R -> weights_ok (b_f b').
Proof.
  intros Hf en He. destruct after as (U & _). destruct (up_inv dbg C nv na M0 H0 fmin fmax nf nf' Hrob _ _ _ U) as (A & _). destruct U as (cs & q0 & q1 & D & _ & _ & P1).
  assert (It := d_items _ _ _ _ _ _ _ _ _ _ _ D). unfold items in It. unfold hqp in He. destruct (f_hqp (b_f b')) as [|l0 [|l1 [|? ?]]]; try discriminate. cbn [map] in It. injection It as _ <-. cbn [map nth] in He.
  apply in_map_iff in He. destruct He as (a & <- & Ha). cbn [deref fst].
  assert (Q : In (fst a, info (b_f b') (snd a)) (map (@lab Rnum) (soft C (feet (b_rf b) (b_lf b))))) by (eapply Permutation_in; [exact P1|]; apply in_map_iff; exists a; auto).
  apply in_map_iff in Q. destruct Q as (it & Q1 & Q2). assert (Qa : fst it = fst a) by (unfold lab in Q1; injection Q1 as Q1 _; exact Q1).
  cut (0 <= fst it)%R; [intros X; exact (eq_ind _ (fun w : R => (0 <= w)%R) X _ Qa)|].
  destruct Hc as (_ & C1 & C2 & C3 & C4 & C5 & _). assert (L : forall w : Rnum, (n0 <=? w)%num = true -> (0 <= w)%R) by (intros w H; apply Rleb_true, H).
  apply L in C1, C2, C3, C4, C5.
  assert (CC : forall f, In it (foot_soft C f) -> (0 <= fst it)%R).
  { intros f. unfold foot_soft. destruct ((n0 <=? w_contact C)%num) eqn:W; intros H; cbn in H; repeat destruct H as [H|H]; try contradiction; rewrite <- H; try exact Hf. apply L, W. }
  unfold soft in Q2. apply in_app_iff in Q2. destruct Q2 as [Q2|Q2].
  - apply in_flat_map in Q2. destruct Q2 as (f & _ & Q2). exact (CC f Q2).
  - cbn in Q2. intuition; subst it; cbn; assumption.
Qed.
Lemma is_only r v z : answered (b_f b') r v -> (0 < r)%R -> (0 <= w_forceRef C)%R -> best C nv na fmin fmax on place e r z ->
  forall i, i < nv + 12 * List.length on -> z i = vget v i.
Proof.
  intros A Hr' Hf [Pz Mz] i Hi. destruct after as (U & B & _). destruct (is_best r v A) as [Pv _].
  assert (Pp := physical_possible dbg C nv na M0 H0 fmin fmax nf nf' Hrob _ _ _ U B e).
  assert (Cp := cost_price dbg C nv na M0 H0 fmin fmax nf nf' Hrob _ _ _ U B e We). assert (Sb := size_bulk dbg C nv na M0 H0 fmin fmax nf nf' Hrob _ _ _ U).
  apply (plan_unique _ _ _ _ _ _ _ _ _ _ (as_planned r v A) z Hr' (weights_fine Hf)); [apply Pp, Pz| |rewrite nvar_is; exact Hi].
  rewrite !Cp, !Sb. apply Mz, Pv.
Qed.
Lemma reads_ok v l g s1 s2 u : vlen v = nv + 12 * List.length on -> gets (b_f b') l v = Some s1 -> get s1 g v = Ret s2 u -> reads nv na on place e v g u.
Proof.
  intros Hv Hg Hu. destruct after as (U & B & St & Rc & Ag). destruct (up_inv dbg C nv na M0 H0 fmin fmax nf nf' Hrob _ _ _ U) as (A & BB & N & Nu & Oo & P & _).
  assert (Nk : f_k (b_f b') = 12 * List.length on) by (assert (X := nvar_is); unfold nVar in X; rewrite N in X; lia).
  assert (Ra : reach step any (init nv na M0 H0) (b_f b)) by (revert Rc; apply reach_weaken; intros; exact I).
  assert (G := getters_decode dbg nv na M0 H0 (b_f b) t e (b_f b') v l g s1 s2 u Ra St (eq_trans Hv (eq_sym nvar_is)) Hg Hu).
  destruct g; cbn [reads].
  - destruct G as [D ->]. destruct (after_facts dbg nv na M0 H0 (fun _ => "") (b_f b) t e (b_f b') Hrob Rc Ag St) as (_ & _ & Sz & Dk & En & _).
    destruct (decode_tau (b_f b') e A Sz Dk v s2 (compute_not_decoded dbg _ _ _ _ St) (eq_trans Hv (eq_sym nvar_is)) D) as [T1 T2]. rewrite N, Nu in T1, T2.
    split; [exact T1|]. intros q Hq. rewrite (T2 q Hq). apply (torque_at dbg C nv na M0 H0 fmin fmax nf nf' Hrob _ _ _ U B e).
  - exact G.
  - rewrite <- Nk. exact G.
  - destruct G as [_ G]. intros o Ho ->. destruct (obj_con dbg C nv na M0 H0 fmin fmax nf nf' Hrob _ _ _ U o Ho) as (c & Hc' & <-).
    destruct (con_facts dbg C nv na M0 H0 fmin fmax nf nf' Hrob _ _ _ U c Hc') as [Nf Nm].
    destruct (G c) as [G1 G2]; [unfold foot_name; rewrite <- Nm; apply find_contact_eq; assumption|]. rewrite Nf in G1, G2. split; [exact G1|]. intros j Hj. rewrite (G2 j Hj). unfold forces_of.
    rewrite (place_at dbg C nv na M0 H0 fmin fmax nf nf' Hrob _ _ _ U c Hc'). reflexivity.
Qed.
Theorem biped_period r v : answered (b_f b') r v -> exists place, placed on place /\ best C nv na fmin fmax on place e r (vget v) /\
  ((0 < r)%R -> (0 <= w_forceRef C)%R -> forall z, best C nv na fmin fmax on place e r z -> forall i, i < nv + 12 * List.length on -> z i = vget v i) /\
  (forall l g s1 s2 u, vlen v = nv + 12 * List.length on -> gets (b_f b') l v = Some s1 -> get s1 g v = Ret s2 u -> reads nv na on place e v g u).
Proof.
  intros A. exists place. destruct after as (U & _). split; [apply (con_placed dbg C nv na M0 H0 fmin fmax nf nf' Hrob _ _ _ U)|]. split; [exact (is_best r v A)|]. split.
  - intros Hr' Hf z Hz. exact (is_only r v z A Hr' Hf Hz).
  - intros l g s1 s2 u. apply reads_ok.
Qed.
End B.

(** ** The task of a foot that is on the ground *)
(** Same rows as the motion constraint of the contact. *)
Definition same_rows (c : constr Rnum) (A : mat Rnum) (b : vec Rnum) : Prop := c_kind c = CEq /\ meq (c_mat c) A /\ vlen (c_vec c) = vlen b /\ vlen b = mrows A.
Definition foot_task (o : nat) : nat := if o =? 0 then 5 else 4.
Definition apart (a b : vec Rnum) : R := rsum (vlen b) (fun i => (vget a i - vget b i) * (vget a i - vget b i))%R.
Lemma same_row c A b z i : same_rows c A b -> i < vlen b -> rsum (mcols (c_mat c)) (fun j => mget (c_mat c) i j * z j)%R = rsum (mcols A) (fun j => mget A i j * z j)%R.
Proof. intros (_ & (M1 & M2 & M3) & _ & L) Hi. rewrite M2. apply rsum_ext. intros j Hj. rewrite M3 by lia. reflexivity. Qed.
Lemma same_gap c A b z : same_rows c A b -> gap c z = rsum (vlen b) (fun i => (rsum (mcols A) (fun j => mget A i j * z j) - vget (c_vec c) i) * (rsum (mcols A) (fun j => mget A i j * z j) - vget (c_vec c) i))%R.
Proof.
  intros H. assert (H' := H). destruct H' as (K & _ & L & _). unfold gap, eq_gap. rewrite K, L. apply rsum_ext. intros i Hi. rewrite (same_row c A b z i H Hi). reflexivity.
Qed.
(** With hard contacts the task says nothing: its error is the same for every possible motion. *)
Theorem standing_hard (C : conf Rnum) nv na fmin fmax on place e o z : (w_contact C < 0)%R -> In o on -> same_rows (e_task e (foot_task o)) (fst (e_cmotion e o)) (snd (e_cmotion e o)) ->
  possible C nv na fmin fmax on place e z -> gap (e_task e (foot_task o)) z = apart (snd (e_cmotion e o)) (c_vec (e_task e (foot_task o))).
Proof.
  intros W Ho S P. rewrite (same_gap _ _ _ z S). destruct S as (_ & _ & L & _). unfold apart. rewrite L. assert (E := po_still _ _ _ _ _ _ _ _ _ P W o Ho). apply rsum_ext. intros i Hi. rewrite (E i Hi). reflexivity.
Qed.
(** With soft contacts the foot is asked for a weighted mean of the two accelerations. *)
Definition mean (w w' : R) (a b : vec Rnum) : vec Rnum := @mkVec Rnum (vlen a) (fun i => (w * vget a i + w' * vget b i) / (w + w'))%R.
Theorem standing_soft (w w' : R) c A b z : (0 < w + w')%R -> same_rows c A b ->
  (w * eq_gap A b z + w' * gap c z = (w + w') * eq_gap A (mean w w' b (c_vec c)) z + w * w' / (w + w') * apart b (c_vec c))%R.
Proof.
  intros W S. rewrite (same_gap c A b z S). destruct S as (_ & _ & L & _). unfold eq_gap, mean, apart. cbn [vlen vget]. rewrite L, <- !rsum_scal. rewrite <- !rsum_plus. apply rsum_ext. intros i _. field. lra.
Qed.
