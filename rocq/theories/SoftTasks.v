(** What the cost of level 1 means for the robot: weighted squared errors of the tasks, contacts
    and regularisations present. *)
From Coq Require Import String List Arith Bool ZArith Lia Permutation Reals Lra.
From Verif Require Import Scalar Outcome Linalg Constraint Formulation ListUtil FormSpec FormDataSpec FormPhysSpec RSum FormInv FormInvB FormInvC FormOps FormSafe FormSafe2 FormData FormZero FormHist FormPhys FormMain FormSolver.
From Verif Require Solvers SolverSpec.
Import ListNotations.
Open Scope string_scope.
Open Scope list_scope.
Open Scope nat_scope.
Local Notation rsum := (@nsum Rnum).

(** * Specification *)
(** Weight with which a constraint called [n] is in level 1; 0 when there is none. *)
Definition named (n : string) (en : R * option (constr Rnum)) : bool := match @entry_name Rnum en with Some m => String.eqb m n | None => false end.
Definition soft_weight (s : fstate Rnum) (n : string) : R := lsum (fun en => if named n en then fst en else 0%R) (nth 1 (hqp s) []).
(** Squared error of an equality A y = b. *)
Definition eq_gap (A : mat Rnum) (b : vec Rnum) (y : nat -> R) : R :=
  rsum (vlen b) (fun i => (rsum (mcols A) (fun j => mget A i j * y j) - vget b i) * (rsum (mcols A) (fun j => mget A i j * y j) - vget b i))%R.
(** A cost must be an equality: the solvers reject the others (C25). *)
Definition gap (c : constr Rnum) (y : nat -> R) : R := match c_kind c with CEq => eq_gap (c_mat c) (c_vec c) y | _ => 0%R end.
(** Cost of a motion [x] (accelerations, contact forces and the joint torques they need) when
    what is called [n] weighs [W n]. *)
Section Cost.
Variables (W : string -> R) (s : fstate Rnum) (e : env Rnum) (x : nat -> R).
Definition motion_cost (t : tlevel) : R := (W (tl_name t) * gap (e_task e (tl_task t)) x)%R.
Definition force_cost (t : tlevel) : R :=
  (W (tl_name t) * gap (e_task e (tl_task t)) (fun r => x (fst (force_slot s (e_assoc e (tl_task t))) + r)%nat))%R.
Definition act_cost (t : tlevel) : R := (W (tl_name t) * gap (e_task e (tl_task t)) (fun q => needed_torque s e x (f_nu s + q)%nat))%R.
Definition contact_cost (c : clevel) : R :=
  (W (cl_name s c ++ "_motion_task") * eq_gap (fst (e_cmotion e (cl_obj c))) (snd (e_cmotion e (cl_obj c))) x +
   W (cl_name s c ++ "_force_reg_task") * eq_gap (fst (e_creg e (cl_obj c))) (snd (e_creg e (cl_obj c))) (force_of s c x))%R.
Definition cost_with : R :=
  (lsum motion_cost (f_motions s) + lsum force_cost (f_forces s) + lsum act_cost (f_acts s) + lsum contact_cost (f_contacts s))%R.
End Cost.
Definition soft_cost (s : fstate Rnum) : env Rnum -> (nat -> R) -> R := cost_with (soft_weight s) s.

(** * Proofs *)
(** ** Sums over lists *)
Lemma lsum_zero {A} (f : A -> R) l : (forall a, In a l -> f a = 0%R) -> lsum f l = 0%R.
Proof. induction l as [|a l IH]; intros H; [reflexivity|]. rewrite lsum_cons, IH, H by (intros; try apply H; simpl; auto). lra. Qed.
Lemma lsum_pick (f : nat -> R) l a : NoDup l -> In a l -> lsum (fun b => if a =? b then f b else 0%R) l = f a.
Proof.
  induction 1 as [|b l Nb ND IH]; intros Ha; [contradiction|]. rewrite lsum_cons. destruct Ha as [->|Ha].
  - rewrite Nat.eqb_refl, lsum_zero; [lra|]. intros b Hb. destruct (Nat.eqb_spec a b) as [->|]; [contradiction|reflexivity].
  - rewrite IH by exact Ha. destruct (Nat.eqb_spec a b) as [->|]; [contradiction|lra].
Qed.
Lemma lsum_flat {A B} (g : A -> list B) (f : B -> R) l : lsum f (flat_map g l) = lsum (fun a => lsum f (g a)) l.
Proof. induction l as [|a l IH]; [reflexivity|]. simpl. rewrite lsum_app, lsum_cons, IH. reflexivity. Qed.
(** Weight of an address. *)
Definition at_addr (l : list (R * nat)) (a : nat) : R := lsum (fun en => if snd en =? a then fst en else 0%R) l.
Lemma addr_zero l a : ~ In a (map snd l) -> at_addr l a = 0%R.
Proof. intros H. apply lsum_zero. intros en He. destruct (Nat.eqb_spec (snd en) a) as [<-|]; [|reflexivity]. exfalso. apply H. apply in_map, He. Qed.
Lemma by_addr (f : nat -> R) O l : NoDup O -> (forall en, In en l -> In (snd en) O) ->
  lsum (fun en : R * nat => fst en * f (snd en))%R l = lsum (fun a => at_addr l a * f a)%R O.
Proof.
  intros ND. induction l as [|en l IH]; intros H.
  - symmetry. apply lsum_zero. intros a _. unfold at_addr, lsum. simpl. lra.
  - rewrite lsum_cons, IH by (intros; apply H; right; assumption).
    rewrite (lsum_ext (fun a => at_addr (en :: l) a * f a)%R (fun a => (if (snd en =? a)%nat then fst en * f a else 0) + at_addr l a * f a)%R).
    + rewrite lsum_plus, (lsum_pick (fun a => fst en * f a)%R) by (auto; apply H; left; reflexivity). reflexivity.
    + intros a _. unfold at_addr. rewrite lsum_cons. destruct (snd en =? a)%nat; ring.
Qed.

Section Soft.
Variables (s : fstate Rnum) (e : env Rnum).
Hypotheses (A : invA s) (B : invB s) (S : invS s) (D : data_ok s e) (E : env_ok s e).
Variables (cl0 cl1 : Solvers.level Rnum) (l0 l1 : list (R * nat)).
Hypothesis HQ : f_hqp s = [l0; l1].
Hypothesis HP : problem_of s [cl0; cl1].
Hypothesis HE : forall w c, In (w, c) cl1 -> c_kind c = CEq.

Lemma level_one : map (deref s) l1 = map (fun wc => (fst wc, Some (snd wc))) cl1.
Proof.
  assert (H := HP). unfold problem_of, hqp in H. rewrite HQ in H. simpl in H. injection H as _ H. etransitivity; [exact H|]. apply map_ext. intros [w c]. reflexivity.
Qed.
Lemma nth_one : nth 1 (hqp s) [] = map (deref s) l1.
Proof. unfold hqp. rewrite HQ. reflexivity. Qed.
Definition cell_gap (x : nat -> R) (a : nat) : R :=
  match nth_error (f_heap s) a with Some k => SolverSpec.sqnorm (mrows (c_mat k)) (SolverSpec.residual k x) | None => 0%R end.
Lemma cost_cells x : lsum (fun wc => SolverSpec.task_cost wc x) cl1 = lsum (fun en : R * nat => fst en * cell_gap x (snd en))%R l1.
Proof.
  assert (H := level_one). revert H. generalize cl1. clear HQ. induction l1 as [|en l IH]; intros c H; destruct c as [|[w k] c]; try discriminate; [reflexivity|].
  simpl in H. injection H as H1 H2 H. rewrite !lsum_cons, (IH c H). f_equal. unfold SolverSpec.task_cost, cell_gap. cbn [fst snd]. rewrite <- H1, H2. reflexivity.
Qed.
Lemma level_cell en : In en l1 -> exists k, nth_error (f_heap s) (snd en) = Some k /\ c_kind k = CEq.
Proof.
  intros H. assert (Q : In (deref s en) (map (fun wc => (fst wc, Some (snd wc))) cl1)) by (rewrite <- level_one; apply in_map, H).
  apply in_map_iff in Q. destruct Q as ([w k] & Q1 & Q2). exists k. split; [|apply (HE w k Q2)]. unfold deref in Q1. injection Q1 as _ Q1. symmetry. exact Q1.
Qed.
Lemma level_owner en : In en l1 -> In (snd en) (owners s).
Proof. intros H. apply (owner_in s _ B). rewrite HQ. simpl. rewrite app_nil_r, map_app. apply in_or_app. right. apply in_map, H. Qed.
Lemma not_level a i : i <> 1 -> in_level s i a -> ~ In a (map snd l1).
Proof.
  intros N H C. apply N. apply (in_level_unique s i 1 a B H). exists l1. rewrite HQ. split; [reflexivity|exact C].
Qed.
Lemma owner_cell a : In a (owners s) -> exists k, nth_error (f_heap s) a = Some k.
Proof.
  intros Ha. apply (owner_in s a B) in Ha. apply in_map_iff in Ha. destruct Ha as (en & <- & Hen).
  assert (Fc := ia_cols _ A). rewrite Forall_forall in Fc. destruct (Fc _ Hen) as (nn & kd & rr & Hs).
  apply nth_shape in Hs. destruct Hs as (k & Hk & _). eauto.
Qed.
(** Weights by address and by name. *)
Lemma weight_addr a n : In a (owners s) -> name_at (f_heap s) a = n -> soft_weight s n = at_addr l1 a.
Proof.
  intros Ha Hn. unfold soft_weight. rewrite nth_one, lsum_map. apply lsum_ext. intros [w b] He.
  destruct (level_cell _ He) as (k & Hk & _). assert (Ob := level_owner _ He). cbn [fst snd] in *.
  assert (En : named n (deref s (w, b)) = String.eqb (c_name k) n).
  { unfold named, entry_name. change (@deref Rnum s (w, b)) with (w, nth_error (f_heap s) b). cbn [snd]. rewrite Hk. reflexivity. }
  rewrite En. change (fst (@deref Rnum s (w, b))) with w.
  assert (Nk : name_at (f_heap s) b = c_name k) by (unfold name_at; rewrite Hk; reflexivity).
  destruct (Nat.eqb_spec b a) as [Q|Q].
  - rewrite <- Q, Nk in Hn. rewrite Hn, String.eqb_refl. reflexivity.
  - destruct (String.eqb_spec (c_name k) n) as [X|X]; [|reflexivity]. exfalso. apply Q. apply (same_owner s _ _ B Ob Ha). congruence.
Qed.
Lemma sq_rows n m (f g : nat -> R) : n = m -> (forall i, i < n -> f i = g i) -> SolverSpec.sqnorm n f = rsum m (fun i => g i * g i)%R.
Proof. intros -> H. unfold SolverSpec.sqnorm. apply rsum_ext. intros i Hi. rewrite H by exact Hi. reflexivity. Qed.
Lemma residual_lhs k x i : c_kind k = CEq -> SolverSpec.residual k x i = (lhs k x i - vget (c_vec k) i)%R.
Proof. intros H. unfold SolverSpec.residual, lhs, SolverSpec.qrow. rewrite H. reflexivity. Qed.
Lemma eq_rows (c : constr Rnum) r : crows c = Some r -> c_kind c = CEq -> r = vlen (c_vec c).
Proof. unfold crows. intros H K. rewrite K in H. destruct (Nat.eqb_spec (mrows (c_mat c)) (vlen (c_vec c))); [congruence|discriminate]. Qed.
(** A task at an address of level 1, or of another level. *)
Lemma weigh a n x (v : R) : In a (owners s) -> name_at (f_heap s) a = n ->
  (forall k, nth_error (f_heap s) a = Some k -> c_kind k = CEq -> SolverSpec.sqnorm (mrows (c_mat k)) (SolverSpec.residual k x) = v) ->
  (at_addr l1 a * cell_gap x a)%R = (soft_weight s n * v)%R.
Proof.
  intros Ha Hn H. rewrite (weight_addr a n Ha Hn). destruct (in_dec Nat.eq_dec a (map snd l1)) as [I|I].
  - apply in_map_iff in I. destruct I as (en & <- & He). destruct (level_cell en He) as (k & Hk & Kd). unfold cell_gap. rewrite Hk, (H k Hk Kd). reflexivity.
  - rewrite addr_zero by exact I. lra.
Qed.
Lemma task_name t : In t (tasks s) -> In (tl_cstr t) (owners s) /\ name_at (f_heap s) (tl_cstr t) = tl_name t.
Proof.
  intros Ht. split; [right; apply in_or_app; left; apply in_map; exact Ht|]. destruct (b_task _ B t Ht) as ((kd & r & Hi) & _). exact (info_name _ _ _ _ _ Hi).
Qed.
Lemma window_gap t j0 n x kd r k : In t (tasks s) -> announced s t kd r -> task_data_ok kd r n (e_task e (tl_task t)) -> j0 + n <= nVar s ->
  task_filled s t j0 n (e_task e (tl_task t)) -> nth_error (f_heap s) (tl_cstr t) = Some k -> c_kind k = CEq ->
  SolverSpec.sqnorm (mrows (c_mat k)) (SolverSpec.residual k x) = gap (e_task e (tl_task t)) (fun q => x (j0 + q)).
Proof.
  intros Ht Ha Hd Hn Hf Hk Kd. destruct (task_name t Ht) as [Ho _]. assert (Row := task_row s A B t j0 n _ k x kd r Ha Hd Hn Ho Hf Hk).
  destruct Ha as (k0 & Hk0 & Ek & Er). destruct Hd as (Tk & Tr & Tc). destruct Hf as (k' & Hk' & Kk & Oc & Rh). assert (k' = k) by congruence. assert (k0 = k) by congruence. subst k' k0.
  rewrite Kd in Kk. destruct (c_kind (e_task e (tl_task t))) eqn:Kc; try discriminate. unfold same_rhs in Rh. rewrite Kc in Rh. assert (Rv := eq_rows _ _ Tr Kc).
  unfold gap. rewrite Kc. unfold eq_gap. apply sq_rows; [congruence|]. intros i Hi. rewrite residual_lhs by exact Kd. rewrite Row by lia. unfold lhs. rewrite Kc, Rh. reflexivity.
Qed.
Lemma act_gap t x kd r k : In t (f_acts s) -> announced s t kd r -> nth_error (f_heap s) (tl_cstr t) = Some k -> c_kind k = CEq ->
  SolverSpec.sqnorm (mrows (c_mat k)) (SolverSpec.residual k x) = gap (e_task e (tl_task t)) (fun q => needed_torque s e x (f_nu s + q)).
Proof.
  intros Ht Ha Hk Kd. assert (Row := act_row s e A B S D E t k x kd r Ht Ha Hk). destruct E as (_ & _ & _ & _ & _ & _ & _ & Ea). destruct (Ea _ _ _ Ht Ha) as (Tk & Tr & Tc).
  destruct (dk_act _ _ D t Ht) as (k' & Hk' & Kk & Bd & G & Rh). destruct Ha as (k0 & Hk0 & Ek & Er). assert (k' = k) by congruence. assert (k0 = k) by congruence. subst k' k0.
  rewrite Kd in Kk. destruct (c_kind (e_task e (tl_task t))) eqn:Kc; try discriminate. destruct Rh as [Rl Rg]. assert (Rv := eq_rows _ _ Tr Kc).
  unfold gap. rewrite Kc. unfold eq_gap. apply sq_rows; [congruence|]. intros i Hi. rewrite residual_lhs by exact Kd. rewrite Row, Rg by lia. unfold lhs. rewrite Kc. simpl. ring.
Qed.
Lemma reg_gap c x k : In c (f_contacts s) -> nth_error (f_heap s) (cl_reg c) = Some k -> c_kind k = CEq ->
  SolverSpec.sqnorm (mrows (c_mat k)) (SolverSpec.residual k x) = eq_gap (fst (e_creg e (cl_obj c))) (snd (e_creg e (cl_obj c))) (force_of s c x).
Proof.
  intros Hc Hk Kd. destruct (b_con _ B c Hc) as ([[[[n nf] mr] fr] rr] & Hok). assert (Hok' := Hok).
  destruct (con_cells s c n nf mr fr rr Hok) as (o & km & kf & Ho & Hs & _). unfold oshape in Hs. injection Hs as S1 S2 S3 S4 S5.
  destruct Hok' as (_ & _ & _ & I3 & _). unfold info in I3. destruct (nth_error (shapes s) (cl_reg c)) as [[[[n' kd'] r'] c']|] eqn:Hsh; [|discriminate].
  injection I3 as -> -> ->. apply nth_shape in Hsh. destruct Hsh as (k0 & Hk0 & Hsh). assert (k0 = k) by congruence. subst k0. unfold shape in Hsh. injection Hsh as _ _ Rw Cl0.
  destruct (dk_contact _ _ D c o Hc Ho) as (_ & _ & (k' & Hk' & Oc & V)). assert (k' = k) by congruence. subst k'.
  destruct E as (_ & _ & _ & Ec & _). specialize (Ec c o Hc Ho). unfold contact_data_ok in Ec.
  destruct (e_cmotion e (cl_obj c)) as [Am bm]. destruct (e_creg e (cl_obj c)) as [Cm dm]. cbn [fst snd] in *.
  destruct Ec as (_ & _ & _ & _ & _ & _ & C1 & C2 & C3).
  assert (Ow : In (cl_reg c) (owners s)). { right. apply in_or_app. right. apply in_flat_map. exists c. simpl; auto. }
  assert (Cl := owner_cols s A B _ _ Ow Hk). assert (Fit := contact_fits s A B c Hc).
  assert (Nf : cl_nforce s c = co_nforce o) by (unfold cl_nforce, cobj_at; rewrite Ho; reflexivity).
  unfold eq_gap. apply sq_rows; [lia|]. intros i Hi. rewrite residual_lhs by exact Kd. unfold lhs. rewrite Kd, V.
  rewrite (only_row _ _ _ _ i x Oc); [|rewrite Cl; lia|exact Hi]. unfold force_of. rewrite C2. reflexivity.
Qed.
Lemma foot_gap c x k : In c (f_contacts s) -> nth_error (f_heap s) (cl_motion c) = Some k ->
  SolverSpec.sqnorm (mrows (c_mat k)) (SolverSpec.residual k x) = eq_gap (fst (e_cmotion e (cl_obj c))) (snd (e_cmotion e (cl_obj c))) x.
Proof.
  intros Hc Hk. destruct (contact_motion_row s e A B D E c k x Hc Hk) as (Kd & V & Rw & Row). unfold eq_gap. apply sq_rows; [exact Rw|]. intros i Hi.
  rewrite residual_lhs by exact Kd. rewrite Row by lia. rewrite V. reflexivity.
Qed.
(** The cost of level 1. *)
Theorem soft_meaning x : lsum (fun wc => SolverSpec.task_cost wc x) cl1 = soft_cost s e x.
Proof.
  rewrite cost_cells, (by_addr (cell_gap x) (owners s) l1 (owners_nodup s B) level_owner). unfold owners.
  rewrite lsum_cons, lsum_app, lsum_map, lsum_flat.
  rewrite (addr_zero l1 (f_base s)) by (apply (not_level _ 0); [discriminate|exact (b_base _ B)]). rewrite Rmult_0_l, Rplus_0_l. unfold soft_cost, cost_with. apply f_equal2.
  - unfold tasks. rewrite !lsum_app, <- Rplus_assoc. apply f_equal2; [apply f_equal2|]; apply lsum_ext; intros t Ht.
    + assert (Ht' : In t (tasks s)) by (unfold tasks; rewrite !in_app_iff; auto). destruct (task_name t Ht') as [Ho Hn]. destruct (task_announced s B t Ht') as (kd & r & Ha).
      apply (weigh (tl_cstr t) (tl_name t) x _ Ho Hn). intros k Hk Kd. rewrite (window_gap t 0 (f_nv s) x kd r k Ht' Ha); auto.
      * destruct E as (_ & _ & _ & _ & _ & E6 & _). eauto.
      * unfold nVar; lia.
      * apply (dk_motion _ _ D); exact Ht.
    + assert (Ht' : In t (tasks s)) by (unfold tasks; rewrite !in_app_iff; auto). destruct (task_name t Ht') as [Ho Hn]. destruct (task_announced s B t Ht') as (kd & r & Ha).
      apply (weigh (tl_cstr t) (tl_name t) x _ Ho Hn). intros k Hk Kd. eapply (window_gap t _ _ x kd r k Ht' Ha); eauto.
      * destruct E as (_ & _ & _ & _ & _ & _ & E7 & _). eapply E7; eauto.
      * apply (slot_le s A).
      * apply (dk_force _ _ D); exact Ht.
    + assert (Ht' : In t (tasks s)) by (unfold tasks; rewrite !in_app_iff; auto). destruct (task_name t Ht') as [Ho Hn]. destruct (task_announced s B t Ht') as (kd & r & Ha).
      apply (weigh (tl_cstr t) (tl_name t) x _ Ho Hn). intros k Hk Kd. apply (act_gap t x kd r k Ht Ha Hk Kd).
  - apply lsum_ext. intros c Hc. destruct (b_con _ B c Hc) as ([[[[n nf] mr] fr] rr] & Hok). destruct (con_name s c n nf mr fr rr Hok) as [Nc _].
    destruct Hok as (_ & I1 & I2 & I3 & _ & F0 & _). unfold con_addrs. rewrite !lsum_cons. change (lsum (fun a => at_addr l1 a * cell_gap x a)%R []) with 0%R.
    assert (Ow : forall a, In a (con_addrs c) -> In a (owners s)). { intros a Ha. right. apply in_or_app. right. apply in_flat_map. exists c. auto. }
    rewrite (addr_zero l1 (cl_force c)) by (apply (not_level _ 0); [discriminate|exact F0]). unfold contact_cost. rewrite Nc.
    rewrite (weigh (cl_motion c) _ x _ (Ow _ (or_introl eq_refl)) (info_name _ _ _ _ _ I1) (fun k Hk _ => foot_gap c x k Hc Hk)).
    rewrite (weigh (cl_reg c) _ x _ (Ow _ (or_intror (or_intror (or_introl eq_refl)))) (info_name _ _ _ _ _ I3) (fun k Hk Kd => reg_gap c x k Hc Hk Kd)). ring.
Qed.
End Soft.
