(** Programs that only add soft contacts and tasks: the answers of an exact solver are the best
    motions the hard constraints admit, with the weights given when the tasks and contacts were
    added (used for the demos, C111).  No code is modelled here. *)
From Coq Require Import String List Arith Bool ZArith Lia Reals Lra.
From Verif Require Import Scalar Outcome Linalg Constraint Formulation ListUtil FormSpec FormDataSpec FormPhysSpec RSum FormInv FormInvB FormInvC FormOps FormSafe FormSafe2 FormContact FormPhys FormMain FormCheck FormDecode Walking WalkingSpec WalkingP BipedBook SoftTasks SoftPlan SoftOrderR SoftContacts SoftCalls Sheets.
Import ListNotations.
Open Scope string_scope.
Open Scope list_scope.
Open Scope nat_scope.

Section Best.
Variables (dbg : bool) (nv na : nat) (M0 : mat Rnum) (H0 : vec Rnum).
Hypothesis Hrob : FormMain.robot_ok nv M0 H0.
Local Notation step := (@Formulation.step Rnum dbg).
Local Notation now := (Sheets.now dbg nv na M0 H0).
Local Notation effort := (Sheets.effort nv).
Local Notation obeyed := (Sheets.obeyed nv na).

(** Weight in level 1 of what is called [n]. *)
Definition weight_in (h : sheet) (n : string) : R := lsum (fun it => if match snd it with Some (m, _, _) => String.eqb m n | None => false end then fst it else 0%R) (sh_q1 h).
(** Weighted squared errors of the tasks and contacts. *)
Definition price (h : sheet) (e : env Rnum) (z : nat -> R) : R :=
  let '(m, _, a, _, _) := sh_book h in
  (lsum (fun '(id, n, _) => weight_in h n * gap (e_task e id) z) m + lsum (fun '(id, n, _) => weight_in h n * gap (e_task e id) (fun q => effort h e z (nv - na + q)%nat)) a +
   lsum (fun '(o, i, _) => weight_in h (oname (sh_objs h) o ++ "_motion_task") * eq_gap (fst (e_cmotion e o)) (snd (e_cmotion e o)) z +
                           weight_in h (oname (sh_objs h) o ++ "_force_reg_task") * eq_gap (fst (e_creg e o)) (snd (e_creg e o)) (fun r => z (nv + i + r)%nat)) (places h))%R.
Definition square (h : sheet) (z : nat -> R) : R := @nsum Rnum (nv + width h) (fun i => z i * z i)%R.

Lemma now_weight h s n : now h s -> soft_weight s n = weight_in h n.
Proof.
  intros N. unfold soft_weight, weight_in. assert (It := d_items _ _ _ _ _ _ _ _ _ _ _ (n_desc _ _ _ _ _ _ _ N)). unfold items in It. unfold hqp.
  destruct (f_hqp s) as [|l0 [|l1 [|? ?]]]; try discriminate It. cbn [map] in It. injection It as _ <-. cbn [map nth]. rewrite !lsum_map. apply lsum_ext. intros [w a] _.
  cbn [deref fst snd]. unfold named, entry_name, info, shapes. cbn [deref snd fst option_map]. rewrite nth_error_map. destruct (nth_error (f_heap s) a); reflexivity.
Qed.
Lemma gap_all c (u v : nat -> R) : (forall i, u i = v i) -> gap c u = gap c v.
Proof. intros H. unfold gap. destruct (c_kind c); try reflexivity. unfold eq_gap. apply rsum_ext. intros i _. rewrite (rsum_ext _ (fun j => mget (c_mat c) i j * u j)%R (fun j => mget (c_mat c) i j * v j)%R) by (intros j _; rewrite H; reflexivity). reflexivity. Qed.
Lemma now_price h s e z : now h s -> soft_cost s e z = price h e z.
Proof.
  intros N. destruct (now_nv _ _ _ _ _ h s N) as [N1 N2]. assert (Bk := n_book _ _ _ _ _ _ _ N). destruct (n_none _ _ _ _ _ _ _ N) as (Z1 & _).
  assert (Ow : forall c, cl_name s c = oname (sh_objs h) (cl_obj c)). { intros c. unfold cl_name, cobj_at, oname. rewrite (d_objs _ _ _ _ _ _ _ _ _ _ _ (n_desc _ _ _ _ _ _ _ N)). reflexivity. }
  unfold soft_cost, cost_with, price. rewrite <- (now_placed dbg nv na M0 H0 Hrob h s N). destruct (sh_book h) as [[[[m f] a] x] zz]. cbn [fst snd] in Z1. subst f. unfold book in Bk. injection Bk as <- Bf <- _ _.
  destruct (f_forces s); [|discriminate Bf]. change (lsum (force_cost (soft_weight s) s e z) []) with 0%R. rewrite !lsum_map, Rplus_0_r. f_equal; [f_equal|].
  - apply lsum_ext. intros t _. unfold motion_cost, entry_of. rewrite (now_weight h s _ N). reflexivity.
  - apply lsum_ext. intros t _. unfold act_cost, entry_of. rewrite (now_weight h s _ N), N2. f_equal. apply gap_all. intros i. apply (now_effort dbg nv na M0 H0 Hrob h s e z _ N).
  - apply lsum_ext. intros c _. unfold contact_cost. rewrite !(now_weight h s _ N), Ow. unfold force_of. rewrite N1. reflexivity.
Qed.
Lemma now_square h s z : now h s -> size_of s z = square h z.
Proof. intros N. unfold size_of, square, nVar. rewrite (proj1 (now_nv _ _ _ _ _ h s N)), (now_width dbg nv na M0 H0 Hrob h s N). reflexivity. Qed.
(** The hard constraints mean exactly [obeyed]. *)
Lemma now_physical h s e z : now h s -> physical s e z <-> obeyed h e z.
Proof.
  intros N. destruct (now_nv _ _ _ _ _ h s N) as [N1 N2]. assert (Bk := n_book _ _ _ _ _ _ _ N).
  assert (Ef : forall i, needed_torque s e z i = effort h e z i) by (intros i; exact (now_effort dbg nv na M0 H0 Hrob h s e z i N)).
  assert (Hp := now_placed dbg nv na M0 H0 Hrob h s N). assert (Ob := d_objs _ _ _ _ _ _ _ _ _ _ _ (n_desc _ _ _ _ _ _ _ N)).
  destruct (inv_soft_facts s (soft_reach dbg nv na M0 H0 asc0 s (n_soft _ _ _ _ _ _ _ N))) as (S1 & S2 & _). split; intros Ph.
  - constructor.
    + intros i Hi. rewrite <- Ef. apply (ph_base _ _ _ Ph). rewrite N2. exact Hi.
    + intros o a n x Hi Hx. rewrite <- Hp in Hi. apply in_map_iff in Hi. destruct Hi as (c & Ec & Hc). injection Ec as <- <- <-.
      assert (Q := ph_force _ _ _ Ph c x Hc). rewrite Ob in Q. specialize (Q Hx). destruct (e_cforce e (cl_obj c) (co_fmin x) (co_fmax x)) as [[B lb] ub]. unfold force_of in Q. rewrite N1 in Q. exact Q.
    + intros id n Hi. destruct (sh_book h) as [[[[m f] a] x] zz]. unfold book in Bk. injection Bk as _ _ Ba _ _. cbn [fst snd] in Hi.
      rewrite <- Ba in Hi. apply in_map_iff in Hi. destruct Hi as (q & Eq & Hq). unfold entry_of in Eq. injection Eq as <- _ Hl.
      assert (Q := ph_atask _ _ _ Ph q Hq Hl). revert Q. apply sat_ext. intros i. rewrite N2. apply Ef.
  - constructor.
    + intros i Hi. rewrite Ef. apply (ob_base _ _ _ _ _ Ph). rewrite <- N2. exact Hi.
    + intros c Hc Hh. destruct (S1 c Hh).
    + intros c x Hc Hx. rewrite Ob in Hx. assert (Q := ob_force _ _ _ _ _ Ph (cl_obj c) (cl_index c) (cl_nforce s c) x). rewrite <- Hp in Q.
      specialize (Q (in_map (fun c => (cl_obj c, cl_index c, cl_nforce s c)) _ _ Hc) Hx). destruct (e_cforce e (cl_obj c) (co_fmin x) (co_fmax x)) as [[B lb] ub]. unfold force_of. rewrite N1. exact Q.
    + intros t Ht Hl. destruct (S2 t (in_or_app _ _ _ (or_introl Ht)) Hl).
    + intros t Ht Hl. destruct (S2 t (in_or_app _ _ _ (or_intror Ht)) Hl).
    + intros t Ht Hl. assert (Q := ob_act _ _ _ _ _ Ph (tl_task t) (tl_name t)). destruct (sh_book h) as [[[[m f] a] x] zz]. unfold book in Bk. injection Bk as _ _ Ba _ _. cbn [fst snd] in Q.
      assert (In (tl_task t, tl_name t, 0) a) as Hi by (rewrite <- Ba, <- Hl; exact (in_map entry_of _ _ Ht)). specialize (Q Hi).
      revert Q. apply sat_ext. intros i. rewrite N2, Ef. reflexivity.
Qed.
(** Any answer is a best motion, and the only one for the regularised back-ends. *)
Theorem now_best h s t e s' r y : now h s -> data_fits nv na h e -> step s (Formulation.OCompute t e) = Ret s' OutUnit -> planned dbg nv na M0 H0 asc0 e s' r y ->
  obeyed h e (vget y) /\ (forall z, obeyed h e z -> (price h e (vget y) + r * square h (vget y) <= price h e z + r * square h z)%R) /\
  ((0 < r)%R -> forall z, obeyed h e z -> (price h e z + r * square h z <= price h e (vget y) + r * square h (vget y))%R -> forall i, i < nv + width h -> z i = vget y i).
Proof.
  intros N F E P. destruct (now_period dbg nv na M0 H0 Hrob h s t e N F) as (s2 & E2 & N' & _). rewrite E in E2. injection E2 as <-.
  set (h' := next h (Formulation.OCompute t e)) in *.
  assert (Pp : forall z, physical s' e z <-> obeyed h e z). { intros z. assert (X := now_physical h' s' e z N'). split; intros H; [apply X in H|apply X]; constructor; apply H. }
  assert (Cp : forall z, soft_cost s' e z = price h e z) by (intros z; exact (now_price h' s' e z N')).
  assert (Sq : forall z, size_of s' z = square h z) by (intros z; exact (now_square h' s' z N')).
  destruct (plan_best _ _ _ _ _ _ _ _ _ _ P) as [Ph Mi]. split; [apply Pp, Ph|]. split.
  - intros z Hz. rewrite <- !Cp, <- !Sq. apply Mi, Pp, Hz.
  - intros Hr z Hz Le i Hi. destruct (inv_soft_facts s' (soft_reach dbg nv na M0 H0 asc0 s' (n_soft _ _ _ _ _ _ _ N'))) as (_ & _ & _ & W).
    apply (plan_unique _ _ _ _ _ _ _ _ _ _ P z Hr W); [apply Pp, Hz|rewrite !Cp, !Sq; exact Le|].
    unfold nVar. rewrite (proj1 (now_nv _ _ _ _ _ h' s' N')), (now_width dbg nv na M0 H0 Hrob h' s' N'). exact Hi.
Qed.
End Best.
