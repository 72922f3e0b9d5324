(** Decoded solutions: accelerations, forces and torques (C12, C13, C14, C15, C18). *)
From Coq Require Import String List Arith Bool ZArith Lia Permutation Reals Lra.
From Verif Require Import Scalar Outcome Linalg Constraint Formulation ListUtil FormSpec FormDataSpec FormPhysSpec RSum FormInv FormInvB FormInvC FormOps FormSafe FormSafe2 FormData FormZero FormHist FormPhys.
Import ListNotations.
Open Scope string_scope.
Open Scope list_scope.
Open Scope nat_scope.
#[local] Opaque nsum.

Section Gen.
Context {K : num}.
Variable dbg : bool.
Implicit Types (s : fstate K).

(** Values encoded in the solution [x]. *)
Definition encodes s (x dv f : vec K) : Prop :=
  vlen dv = f_nv s /\ (forall j, j < f_nv s -> vget dv j = vget x j) /\
  vlen f = f_k s /\ (forall r, r < f_k s -> vget f r = vget x (f_nv s + r)).

Lemma decode_cached s x : f_dec s = true -> decode s x = Some s.
Proof. unfold decode. intros ->. reflexivity. Qed.

Lemma decode_encodes s x s' : f_dec s = false -> vlen x = nVar s -> decode s x = Some s' ->
  f_dec s' = true /\ encodes s x (f_dv s') (f_f s') /\ s' = w_sol s (f_dv s') (f_f s') (f_tau s').
Proof.
  unfold decode. intros -> Hx H. ob H. ob H. ob H. ob H. ob H. ob H. ob H. injection H as <-. simpl.
  split; [reflexivity|]. split; [|reflexivity].
  unfold vhead, vsegment in E0. destruct (0 + f_nv s <=? vlen x); [|discriminate]. injection E0 as <-.
  unfold vtail, vsegment in E1. destruct (f_k s <=? vlen x); [|discriminate].
  destruct (_ <=? _); [|discriminate]. injection E1 as <-.
  unfold encodes; simpl. repeat split; auto. intros r Hr. f_equal. unfold nVar in Hx. lia.
Qed.

(** The result of a getter, when the solution has not been decoded yet. *)
Definition answer s1 (g : getter) (v : vec K) : Prop :=
  match g with
  | GTau => v = f_tau s1
  | GAcc => v = f_dv s1
  | GForce => v = f_f s1
  | GForceOf n =>
      match find_contact s1 n with
      | None => vlen v = 0
      | Some c => vlen v = cl_nforce s1 c /\ forall r, r < cl_nforce s1 c -> vget v r = vget (f_f s1) (cl_index c + r)
      end
  end.
Lemma get_answer s g x s1 v : get s g x = Ret s1 v -> decode s x = Some s1 /\ answer s1 g v.
Proof.
  unfold get. intros H. destruct (decode s x) as [s2|]; [|discriminate].
  destruct g; try (injection H as <- <-; split; reflexivity).
  destruct (find_contact s2 name) as [c|] eqn:Ec.
  - destruct (vsegment (f_f s2) (cl_index c) (cl_nforce s2 c)) as [u|] eqn:Eu; [|discriminate].
    injection H as <- <-. split; [reflexivity|]. simpl. rewrite Ec.
    unfold vsegment in Eu. destruct (_ <=? _); [|discriminate]. injection Eu as <-. simpl. auto.
  - injection H as <- <-. split; [reflexivity|]. simpl. rewrite Ec. reflexivity.
Qed.

(** Getters called one after the other with the same solution. *)
Fixpoint gets s (l : list getter) (x : vec K) : option (fstate K) :=
  match l with
  | [] => Some s
  | g :: l' => match get s g x with Ret s' _ => gets s' l' x | _ => None end
  end.

Lemma gets_cached l x : forall s s', f_dec s = true -> gets s l x = Some s' -> s' = s.
Proof.
  induction l as [|g l IH]; simpl; intros s s' Hd H; [congruence|].
  destruct (get s g x) as [s1 v|?|] eqn:E; [|discriminate|discriminate].
  apply get_answer in E. destruct E as [E _]. rewrite decode_cached in E by exact Hd. injection E as <-. eauto.
Qed.

Lemma gets_answer s l x g s1 s2 v : f_dec s = false -> vlen x = nVar s ->
  gets s l x = Some s1 -> get s1 g x = Ret s2 v -> decode s x = Some s2 /\ answer s2 g v.
Proof.
  intros Hd Hx Hg H. destruct l as [|g0 l].
  - simpl in Hg. injection Hg as <-. apply get_answer; exact H.
  - simpl in Hg. destruct (get s g0 x) as [s0 v0|?|] eqn:E; [|discriminate|discriminate].
    apply get_answer in E. destruct E as [E _]. destruct (decode_encodes s x s0 Hd Hx E) as (D0 & _).
    apply gets_cached in Hg; [|exact D0]. subst s1. apply get_answer in H. destruct H as [H A].
    rewrite decode_cached in H by exact D0. injection H as <-. auto.
Qed.

Lemma compute_not_decoded s t e s' : step dbg s (OCompute t e) = Ret s' OutUnit -> f_dec s' = false.
Proof.
  intros H. destruct (compute_inv _ _ _ _ _ H) as (s1 & _ & C). apply comp_fill_obs in C. tauto.
Qed.

End Gen.

Section Dyn.
Variables (s : fstate Rnum) (e : env Rnum).
Hypotheses (A : invA s) (B : invB s) (S : invS s) (D : data_ok s e) (E : env_ok s e).

Lemma decode_tau x s' : f_dec s = false -> vlen x = nVar s -> decode s x = Some s' ->
  vlen (f_tau s') = f_nv s - f_nu s /\
  forall q, q < f_nv s - f_nu s -> vget (f_tau s') q = needed_torque s e (vget x) (f_nu s + q).
Proof.
  unfold decode. intros -> Hx H.
  destruct (dyn_blocks s) as [d|] eqn:F3; [|discriminate].
  destruct (dyn_get s d A) as (Dok & Dis); auto; try apply S; try exact F3.
  cbn [obind] in H. ob H. ob H. ob H. ob H. ob H. ob H. injection H as <-. simpl.
  unfold vhead, vsegment in E0. destruct (0 + f_nv s <=? vlen x); [|discriminate]. injection E0 as <-.
  unfold vtail, vsegment in E1. destruct (f_k s <=? vlen x); [|discriminate].
  destruct (_ <=? _); [|discriminate]. injection E1 as <-.
  unfold mvec in E2. simpl in E2. destruct (mcols (d_Ma d) =? f_nv s) eqn:C1; [|discriminate]. injection E2 as <-.
  unfold vadd in E3. simpl in E3. destruct (vlen (d_ha d) =? mrows (d_Ma d)) eqn:C2; [|discriminate]. injection E3 as <-.
  unfold mvec in E4. simpl in E4. destruct (mrows (d_Ja d) =? f_k s) eqn:C3; [|discriminate]. injection E4 as <-.
  unfold vsub in E5. simpl in E5. destruct (vlen (d_ha d) =? mcols (d_Ja d)) eqn:C4; [|discriminate]. injection E5 as <-.
  simpl.
  destruct Dok as (K1 & K2 & K3 & K4 & K5 & _). destruct Dis as (I1 & I2 & I3 & _).
  split; [exact K3|]. intros q Hq. rewrite K2, K4. assert (Nu := is_nu _ S).
  rewrite (rsum_ext (f_nv s) _ (fun j => mget (e_mass e) (f_nu s + q)%nat j * vget x j)%R).
  2:{ intros j Hj. simpl. rewrite I1, (dk_mass _ _ D). reflexivity. }
  rewrite (rsum_ext (f_k s) _ (fun r => mget (f_Jc s) r (f_nu s + q)%nat * vget x (f_nv s + r)%nat)%R).
  2:{ intros r Hr. simpl. rewrite I3. do 2 f_equal. unfold nVar in Hx. lia. }
  rewrite (contact_rows s e A D (vget x) (f_nu s + q)) by lia.
  rewrite I2, (dk_nle _ _ D), (dk_hfext _ _ D), ext_meas by lia.
  unfold needed_torque. simpl. lra.
Qed.

(** Joint torque applied on all the rows of the equations of motion. *)
Definition full_torque (tau : vec Rnum) (i : nat) : R := if i <? f_nu s then 0%R else vget tau (i - f_nu s).
Definition force_torque (f : vec Rnum) (i : nat) : R :=
  lsum (fun c => rsum (cl_nforce s c) (fun r => jac e (cl_obj c) r i * vget f (cl_index c + r)%nat)%R) (f_contacts s).

Lemma force_torque_eq x dv f i : encodes s x dv f -> force_torque f i = contact_torque s e (vget x) i.
Proof.
  intros (_ & _ & _ & H). unfold force_torque, contact_torque. apply lsum_ext. intros c Hc. apply rsum_ext. intros r Hr.
  assert (F := contact_fits s A B c Hc). unfold nVar in F. unfold force_of. rewrite H by lia. rewrite Nat.add_assoc. reflexivity.
Qed.

Lemma decode_motion x s' : f_dec s = false -> vlen x = nVar s -> decode s x = Some s' ->
  (forall i, i < f_nu s -> needed_torque s e (vget x) i = 0%R) ->
  forall i, i < f_nv s ->
   (rsum (f_nv s) (fun j => mget (e_mass e) i j * vget (f_dv s') j) + vget (e_nle e) i - meas_torque s e i
    = full_torque (f_tau s') i + force_torque (f_f s') i)%R.
Proof.
  intros Hd Hx H Hb i Hi. destruct (decode_tau x s' Hd Hx H) as [_ Ht].
  destruct (decode_encodes s x s' Hd Hx H) as (_ & En & _). rewrite (force_torque_eq x _ _ i En).
  destruct En as (_ & Ev & _).
  rewrite (rsum_ext (f_nv s) _ (fun j => mget (e_mass e) i j * vget x j)%R).
  2:{ intros j Hj. rewrite Ev by exact Hj. reflexivity. }
  unfold full_torque. destruct (Nat.ltb_spec i (f_nu s)) as [L|L].
  - specialize (Hb i L). unfold needed_torque in Hb. lra.
  - rewrite Ht by lia. replace (f_nu s + (i - f_nu s)) with i by lia. unfold needed_torque. lra.
Qed.

Lemma sat_ext (c : constr Rnum) n y z r : crows c = Some r -> match c_kind c with CBound => r = n | _ => mcols (c_mat c) = n end ->
  (forall i, i < n -> y i = z i) -> (sat c y <-> sat c z).
Proof.
  intros Hr Hn Hy.
  assert (L : forall i, i < r -> lhs c y i = lhs c z i).
  { intros i Hi. unfold lhs. destruct (c_kind c); try (rewrite Hn; apply rsum_ext; intros; rewrite Hy by assumption; reflexivity).
    apply Hy. lia. }
  unfold sat, crows in *. destruct (c_kind c) eqn:Ek.
  - destruct (Nat.eqb_spec (mrows (c_mat c)) (vlen (c_vec c))) as [X|X]; [|discriminate]. injection Hr as <-.
    split; intros H i Hi; specialize (H i Hi); rewrite L in * by lia; exact H.
  - destruct (Nat.eqb_spec (mrows (c_mat c)) (vlen (c_lb c))) as [X|X]; [|discriminate].
    destruct (_ =? _); [|discriminate]. simpl in Hr. injection Hr as <-.
    split; intros H i Hi; specialize (H i Hi); rewrite L in * by lia; exact H.
  - destruct (_ =? _); [|discriminate]. injection Hr as <-.
    split; intros H i Hi; specialize (H i Hi); rewrite L in * by lia; exact H.
Qed.

(** C13 *)
Lemma act_torque t k x s' : In t (f_acts s) -> nth_error (f_heap s) (tl_cstr t) = Some k ->
  f_dec s = false -> vlen x = nVar s -> decode s x = Some s' ->
  (sat k (vget x) <-> sat (e_task e (tl_task t)) (vget (f_tau s'))).
Proof.
  intros Ht Hk Hd Hx H. assert (Ht' : In t (tasks s)) by (unfold tasks; rewrite !in_app_iff; auto).
  destruct (task_announced s B t Ht') as (kd & r & Ha).
  rewrite (act_sat s e A B S D E t k (vget x) kd r Ht Ha Hk).
  destruct (decode_tau x s' Hd Hx H) as [_ Hq].
  destruct E as (_ & _ & _ & _ & _ & _ & _ & Ea). destruct (Ea _ _ _ Ht Ha) as (_ & Tr & Tc).
  apply (sat_ext _ (f_nv s - f_nu s) _ _ r Tr Tc). intros i Hi. rewrite Hq by exact Hi. reflexivity.
Qed.

End Dyn.

Section Meas.
Context {K : num}.
Lemma take_meas_app n (l : list (nat * string)) id : ~ In n (map snd l) -> take_meas n (l ++ [(id, n)]) = Some l.
Proof.
  induction l as [|m l IH]; simpl; intros H; [rewrite String.eqb_refl; reflexivity|].
  destruct (String.eqb_spec (snd m) n) as [X|X]; [exfalso; auto|]. rewrite IH by auto. reflexivity.
Qed.
Lemma add_remove_meas (s : fstate K) id n : ~ In n (map snd (f_meas s)) -> remove_meas (add_meas s id n) n = (s, true).
Proof.
  intros H. unfold remove_meas, add_meas. simpl. rewrite take_meas_app by exact H.
  f_equal. apply fs_ext; reflexivity.
Qed.
End Meas.

Lemma meas_torque_perm (s q : fstate Rnum) e i : Permutation (f_meas s) (f_meas q) -> meas_torque s e i = meas_torque q e i.
Proof. intros H. unfold meas_torque. apply lsum_perm; exact H. Qed.
