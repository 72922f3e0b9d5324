(** When every contact, motion task and force task is soft, the hard constraints can always be met
    (C110): accelerations can be found for any contact forces and any joint torques. *)
From Coq Require Import String List Arith Bool ZArith Lia Permutation Reals Lra.
From Verif Require Import Scalar Outcome Linalg Constraint Formulation ListUtil FormSpec FormDataSpec FormPhysSpec RSum FormInv FormInvB FormInvC FormOps FormSafe FormSafe2 FormData FormPhys FormMain FormLevels FormSolver SoftTasks SoftPlan SoftOrder SoftOrderR.
From Verif Require RobotModelR.
Import ListNotations.
Open Scope string_scope.
Open Scope list_scope.
Open Scope nat_scope.
Local Notation rsum := (@nsum Rnum).
Local Notation posdef := RobotModelR.posdef.
Local Notation qform := RobotModelR.qform.

(** * Specification *)
(** A call that asks for nothing hard except, possibly, torques: contacts, motion tasks and force
    tasks go to level 1, soft tasks are equalities, weights are not negative. *)
Definition soft_call (o : fop Rnum) : Prop :=
  match o with
  | OAddMotion _ _ kd _ _ lvl _ | OAddForce _ _ kd _ _ lvl _ => lvl = 1 /\ kd = CEq
  | OAddAct _ _ kd _ _ lvl _ => lvl = 0 \/ kd = CEq
  | OUpdTask _ w => (0 <= w)%R
  | OAddContact _ wr wm lvl => lvl = 1 /\ (0 <= wr)%R /\ (0 <= wm)%R
  | _ => True
  end.
Definition soft_use (dbg : bool) (asc : nat -> string) (s : fstate Rnum) (o : fop Rnum) : Prop := assoc_good dbg asc s o /\ soft_call o.
(** Every contact admits some force, and some torque meets every hard actuation task. *)
Definition forces_exist (s : fstate Rnum) (e : env Rnum) : Prop := forall c o, In c (f_contacts s) -> nth_error (f_objs s) (cl_obj c) = Some o ->
  let '(B, lb, ub) := e_cforce e (cl_obj c) (co_fmin o) (co_fmax o) in exists f, in_holds B lb ub f.
Definition torque_exists (s : fstate Rnum) (e : env Rnum) (tau : nat -> R) : Prop :=
  forall t, In t (f_acts s) -> tl_prio t = 0 -> sat (e_task e (tl_task t)) tau.

(** * A positive definite matrix can be solved for any right-hand side *)
Theorem posdef_solve n : forall M b, posdef n M -> exists x, forall i, i < n -> rsum n (fun j => M i j * x j)%R = b i.
Proof.
  induction n as [|n IH]; intros M b P; [exists (fun _ => 0%R); intros i Hi; lia|].
  set (p := M n n).
  assert (Hp : (0 < p)%R).
  { assert (Q := P (fun i => if i =? n then 1%R else 0%R)). unfold RobotModelR.qform in Q. rewrite (rsum_single (S n) n) in Q; [|lia|].
    - rewrite (rsum_single (S n) n) in Q; [|lia|].
      + rewrite Nat.eqb_refl in Q. unfold p. replace (M n n) with (1 * (M n n * 1))%R by ring. apply Q. exists n. rewrite Nat.eqb_refl. split; [lia|lra].
      + intros i _ Hi. apply Nat.eqb_neq in Hi. rewrite Hi. ring.
    - intros i _ Hi. apply Nat.eqb_neq in Hi. rewrite Hi. ring. }
  set (S1 := fun i j => (M i j - M i n * M n j / p)%R).
  assert (RS : forall i x, rsum n (fun j => S1 i j * x j)%R = (rsum n (fun j => M i j * x j) - M i n / p * rsum n (fun j => M n j * x j))%R).
  { intros i x. rewrite <- rsum_scal, <- rsum_minus. apply rsum_ext. intros j _. unfold S1. field. lra. }
  assert (PS : posdef n S1).
  { intros x (i & Hi & Hx). set (yn := (- (rsum n (fun j => M n j * x j)) / p)%R). set (y := fun j => if j =? n then yn else x j).
    assert (E : qform (S n) M y = qform n S1 x).
    { unfold RobotModelR.qform. rewrite rsum_S.
      assert (Y : forall k, k < n -> y k = x k) by (intros k Hk; unfold y; replace (k =? n) with false by (symmetry; apply Nat.eqb_neq; lia); reflexivity).
      assert (Yn : y n = yn) by (unfold y; rewrite Nat.eqb_refl; reflexivity).
      assert (Rw : forall k, rsum (S n) (fun j => M k j * y j)%R = (rsum n (fun j => M k j * x j) + M k n * yn)%R).
      { intros k. rewrite rsum_S, Yn. f_equal. apply rsum_ext. intros j Hj. rewrite Y by exact Hj. reflexivity. }
      rewrite (Rw n). replace (rsum n (fun j => M n j * x j) + M n n * yn)%R with 0%R by (unfold yn; fold p; field; lra). rewrite Rmult_0_r, Rplus_0_r.
      apply rsum_ext. intros k Hk. rewrite Rw, RS, Y by exact Hk. unfold yn. field. lra. }
    rewrite <- E. apply P. exists i. split; [lia|]. unfold y. replace (i =? n) with false by (symmetry; apply Nat.eqb_neq; lia). exact Hx. }
  destruct (IH S1 (fun i => b i - M i n * b n / p)%R PS) as (x & Hx).
  set (xn := ((b n - rsum n (fun j => M n j * x j)) / p)%R).
  exists (fun j => if j =? n then xn else x j). intros i Hi. rewrite rsum_S, Nat.eqb_refl.
  rewrite (rsum_ext n _ (fun j => M i j * x j)%R) by (intros j Hj; replace (j =? n) with false by (symmetry; apply Nat.eqb_neq; lia); reflexivity).
  match goal with |- @eq _ ?u ?v => change (@eq R u v) end.
  destruct (Nat.eq_dec i n) as [->|Hn].
  - fold p. unfold xn. field. lra.
  - assert (X := Hx i ltac:(lia)). rewrite RS in X. unfold xn. transitivity ((rsum n (fun j => M i j * x j) - M i n / p * rsum n (fun j => M n j * x j)) + M i n * b n / p)%R; [field; lra|].
    rewrite X. field. lra.
Qed.

(** * Forces of all the contacts in one vector *)
Lemma place {A} (o n : A -> nat) (Q : A -> (nat -> R) -> Prop) l : forall a b, tiles a (map (fun c => (o c, n c)) l) b ->
  (forall c, In c l -> exists f, Q c f) -> (forall c f g, In c l -> (forall r, r < n c -> f r = g r) -> Q c f -> Q c g) ->
  exists x : nat -> R, forall c, In c l -> Q c (fun r => x (o c + r)).
Proof.
  assert (Low : forall l a b c, tiles a (map (fun c => (o c, n c)) l) b -> In c l -> a <= o c).
  { clear. induction l as [|d l IH]; intros a b c T Hc; [contradiction|]. cbn [map tiles] in T. destruct T as [Ed T]. destruct Hc as [->|Hc]; [lia|].
    assert (X := IH _ _ _ T Hc). lia. }
  induction l as [|c l IH]; intros a b T HQ HE; [exists (fun _ => 0%R); intros c []|].
  cbn [map tiles] in T. destruct T as [Ec T].
  destruct (IH _ _ T (fun d Hd => HQ d (or_intror Hd)) (fun d f g Hd => HE d f g (or_intror Hd))) as (x & Hx).
  destruct (HQ c (or_introl eq_refl)) as (f & Hf).
  exists (fun k => if k <? a + n c then f (k - a) else x k). intros d [<-|Hd].
  - apply (HE c f); [left; reflexivity| |exact Hf]. intros r Hr. replace (o c + r <? a + n c) with true by (symmetry; apply Nat.ltb_lt; lia). f_equal. lia.
  - apply (HE d (fun r => x (o d + r))); [right; exact Hd| |apply Hx, Hd]. intros r Hr. assert (X := Low _ _ _ _ T Hd).
    replace (o d + r <? a + n c) with false by (symmetry; apply Nat.ltb_ge; lia). reflexivity.
Qed.
Lemma in_holds_ext B lb ub f g : (forall j, j < mcols B -> f j = g j) -> in_holds B lb ub f -> in_holds B lb ub g.
Proof. intros E H i Hi. specialize (H i Hi). erewrite <- rsum_ext; [exact H|]. intros j Hj. cbn. rewrite E by exact Hj. reflexivity. Qed.
Lemma sat_ext c n f g : match c_kind c with CBound => crows c = Some n | _ => mcols (c_mat c) = n end -> (forall j, j < n -> f j = g j) -> sat c f -> sat c g.
Proof.
  unfold sat, lhs. intros C E H. destruct (c_kind c) eqn:Kd; intros i Hi; specialize (H i Hi).
  - erewrite <- rsum_ext; [exact H|]. intros j Hj. cbn. rewrite E by lia. reflexivity.
  - erewrite <- rsum_ext; [exact H|]. intros j Hj. cbn. rewrite E by lia. reflexivity.
  - rewrite <- E; [exact H|]. unfold crows in C. rewrite Kd in C.
    repeat match type of C with (if ?b then _ else _) = _ => destruct b eqn:?; [|discriminate C] end. injection C as C.
    rewrite ?andb_true_iff, ?Nat.eqb_eq in *. lia.
Qed.

Section Possible.
Variables (dbg : bool) (nv na : nat) (M0 : mat Rnum) (H0 : vec Rnum) (asc : nat -> string) (s : fstate Rnum) (t : Rnum) (e : env Rnum) (s' : fstate Rnum).
Hypotheses (R0 : FormMain.robot_ok nv M0 H0) (Hr : reach (step dbg) (assoc_good dbg asc) (init nv na M0 H0) s)
           (Ho : assoc_good dbg asc s (OCompute t e)) (Hs : step dbg s (OCompute t e) = Ret s' OutUnit).

(** No hard motion of any kind: some motion respects the hard constraints. *)
Theorem physical_exists tau : (forall c, In c (f_contacts s') -> ~ hard_motion s' c) -> (forall q, In q (f_motions s' ++ f_forces s') -> tl_prio q <> 0) ->
  posdef nv (mget (e_mass e)) -> forces_exist s' e -> torque_exists s' e tau ->
  exists z, physical s' e z /\ (forall q, q < nv - f_nu s' -> needed_torque s' e z (f_nu s' + q) = tau q).
Proof.
  intros HM HT PD FE TE.
  destruct (after_facts dbg nv na M0 H0 asc s t e s' R0 Hr Ho Hs) as (IA & IB & Sz & Dk & En & _ & N1 & N2).
  destruct En as (_ & _ & _ & EC & _ & _ & _ & EA).
  set (Q := fun c (f : nat -> R) => forall o, nth_error (f_objs s') (cl_obj c) = Some o -> let '(B, lb, ub) := e_cforce e (cl_obj c) (co_fmin o) (co_fmax o) in in_holds B lb ub f).
  destruct (place (fun c => cl_index c) (cl_nforce s') Q (f_contacts s') 0 (f_k s') (ia_tile _ IA)) as (x & Hx).
  { intros c Hc. assert (L := proj1 (Forall_forall _ _) (ia_objs _ IA) c Hc). unfold Q. destruct (nth_error (f_objs s') (cl_obj c)) as [o|] eqn:Eo.
    - assert (F := FE c o Hc Eo). destruct (e_cforce e (cl_obj c) (co_fmin o) (co_fmax o)) as [[B lb] ub] eqn:EB. destruct F as (f & Hf). exists f. intros o' E'. injection E' as <-. rewrite EB. exact Hf.
    - exists (fun _ => 0%R). intros o' E'. discriminate E'. }
  { intros c f g Hc E HQ o Eo. specialize (HQ o Eo). assert (CD := EC c o Hc Eo). unfold contact_data_ok in CD.
    destruct (e_cmotion e (cl_obj c)) as [A0 b0]. destruct (e_creg e (cl_obj c)) as [C0 d0]. destruct CD as (_ & _ & _ & _ & _ & CF & _). specialize (CF (co_fmin o) (co_fmax o)).
    destruct (e_cforce e (cl_obj c) (co_fmin o) (co_fmax o)) as [[B lb] ub]. destruct CF as (_ & CB & _).
    eapply in_holds_ext; [|exact HQ]. intros j Hj. apply E. unfold cl_nforce, cobj_at. rewrite Eo. rewrite <- CB. exact Hj. }
  set (tau' := fun i => if i <? f_nu s' then 0%R else tau (i - f_nu s')).
  set (w := fun i => if i <? nv then 0%R else x (i - nv)).
  destruct (posdef_solve nv (mget (e_mass e)) (fun i => tau' i - vget (e_nle e) i + meas_torque s' e i + contact_torque s' e w i)%R PD) as (dv & Hdv).
  set (z := fun i => if i <? nv then dv i else x (i - nv)).
  assert (Ez : forall i, nv <= i -> z i = w i) by (intros i Hi; unfold z, w; apply Nat.ltb_ge in Hi; rewrite Hi; reflexivity).
  assert (EF : forall c r, force_of s' c z r = force_of s' c w r) by (intros c r; unfold force_of; apply Ez; rewrite N1; lia).
  assert (EX : forall c r, force_of s' c z r = x (cl_index c + r)).
  { intros c r. unfold force_of, z. rewrite N1. replace (nv + cl_index c + r <? nv) with false by (symmetry; apply Nat.ltb_ge; lia). f_equal. lia. }
  assert (ET : forall i, contact_torque s' e z i = contact_torque s' e w i).
  { intros i. unfold contact_torque. apply lsum_ext. intros c _. apply rsum_ext. intros r _. rewrite EF. reflexivity. }
  assert (NT : forall i, i < nv -> needed_torque s' e z i = tau' i).
  { intros i Hi. unfold needed_torque. rewrite ET, N1. rewrite (rsum_ext nv _ (fun j => mget (e_mass e) i j * dv j)%R).
    - rewrite (Hdv i Hi). ring.
    - intros j Hj. unfold z. apply Nat.ltb_lt in Hj. rewrite Hj. reflexivity. }
  assert (NA : forall q, q < nv - f_nu s' -> needed_torque s' e z (f_nu s' + q) = tau q).
  { intros q Hq. rewrite NT by lia. unfold tau'. replace (f_nu s' + q <? f_nu s') with false by (symmetry; apply Nat.ltb_ge; lia). f_equal. lia. }
  exists z. split; [constructor|exact NA].
  - intros i Hi. rewrite NT by (clear - Hi N2; lia). unfold tau'. apply Nat.ltb_lt in Hi. rewrite Hi. reflexivity.
  - intros c Hc Hh. destruct (HM c Hc Hh).
  - intros c o Hc Eo. assert (X := Hx c Hc o Eo). destruct (e_cforce e (cl_obj c) (co_fmin o) (co_fmax o)) as [[B lb] ub].
    eapply in_holds_ext; [|exact X]. intros j _. symmetry. apply EX.
  - intros q Hq P0. destruct (HT q); [apply in_or_app; left; exact Hq|exact P0].
  - intros q Hq P0. destruct (HT q); [apply in_or_app; right; exact Hq|exact P0].
  - intros q Hq P0. assert (T := TE q Hq P0).
    assert (An : exists kd r, announced s' q kd r).
    { destruct (b_task _ IB q) as ((kd & r & Ei) & _); [unfold tasks; rewrite !in_app_iff; auto|]. unfold announced. unfold info, shapes in Ei. rewrite nth_error_map in Ei.
      destruct (nth_error (f_heap s') (tl_cstr q)) as [cc|] eqn:Ec; [|discriminate Ei]. exists (c_kind cc), (mrows (c_mat cc)), cc. auto. }
    destruct An as (kd & r & An). destruct (EA q kd r Hq An) as (_ & Rr & Cc). rewrite N1 in Cc.
    eapply (sat_ext _ (nv - f_nu s')); [| |exact T].
    + destruct (c_kind (e_task e (tl_task q))); try exact Cc. rewrite <- Cc. exact Rr.
    + intros j Hj. symmetry. apply NA. exact Hj.
Qed.
End Possible.
