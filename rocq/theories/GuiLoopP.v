(** Which interleavings of the two threads are safe and what the simulation thread reads.
    First the specification, then the proofs. *)
From Coq Require Import String List Arith Bool ZArith Reals Lia Lra Permutation.
From Verif Require Import Scalar Outcome Linalg Constraint Formulation ListUtil FormSpec FormInv FormInvB FormInvC FormOps FormSafe FormSafe2 FormMain FormZero PyData Walking WalkingSpec WalkingP WalkingQ.
From Verif Require Import FormPhysSpec RSum Solvers SolverSpec SolverSizes SolverMain FormSolver GuiLoop.
Import ListNotations.
Open Scope string_scope.
Open Scope list_scope.
Open Scope nat_scope.

(** * Specification *)
Section Spec.
Context {K : num}.
Variables (dbg : bool) (C : conf K).

(** The foot of this button is in contact. *)
Definition standing (g : gui K) (right : bool) : bool := if right then b_rf (g_b g) else b_lf (g_b g).
(** Buttons that break a contact are not pressed between computeProblemData and solve; the
    data given to computeProblemData has the announced sizes; the external solver writes one
    number for each variable; the solution is not shorter than the forces of the feet that are
    in contact when it is read. *)
Definition rule (g : gui K) (ev : event K) : Prop :=
  enabled g ev /\
  match ev with
  | Press r => match g_at g with Holds _ => standing g r = false | _ => True end
  | Comp _ e => env_ok (b_f (g_b g)) e
  | Solve _ _ x => vlen x = nVar (b_f (g_b g))
  | Read => forall x, g_at g = Solved x -> 12 * count (b_rf (g_b g)) (b_lf (g_b g)) <= vlen x
  end.
(** Some buttons are pressed. *)
Definition only_press (g : gui K) (ev : event K) : Prop := rule g ev /\ exists r, ev = Press r.

(** [v] is the beginning of [x]. *)
Definition begins (nv : nat) (v x : vec K) : Prop := vlen v = nv /\ forall i, i < nv -> vget v i = vget x i.
End Spec.

(** * Proofs *)
Section Gen.
Context {K : num}.
Implicit Types (s : fstate K) (d : pydata (K := K)).

Lemma through_in l : forall P, through (K := K) l = Some P -> forall w c, In (w, c) P <-> In (w, Some c) l.
Proof.
  induction l as [|[w o] l IH]; intros P H w' c; cbn [through] in H.
  - injection H as <-. split; intros [].
  - destruct o as [c0|]; [|discriminate]. destruct (through l) as [r|] eqn:E; [|discriminate]. cbn [obind] in H. injection H as <-.
    specialize (IH r eq_refl w' c). cbn [In]. rewrite IH. split; intros [X|X]; auto; left; injection X as <- <-; reflexivity.
Qed.
Lemma through_map (l : level K) : through (map (fun wc => (fst wc, Some (snd wc))) l) = Some l.
Proof. induction l as [|[w c] l IH]; [reflexivity|]. cbn [map through fst snd]. rewrite IH. reflexivity. Qed.
Lemma levels_map (P : hqpdata K) : levels_through (map (map (fun wc => (fst wc, Some (snd wc)))) P) = Some P.
Proof. induction P as [|l P IH]; [reflexivity|]. cbn [map levels_through]. rewrite through_map. cbn [obind]. rewrite IH. reflexivity. Qed.

(** An object is part of the present data: each level is the beginning of the present one. *)
Definition part d (h : list (list (K * nat))) : Prop := Forall2 (fun l l' => exists r, l' = l ++ r) d h.
Lemma part_refl d : part d d.
Proof. induction d as [|l d IH]; constructor; auto. exists []. rewrite app_nil_r. reflexivity. Qed.
Lemma part_push d h lvl e h' : part d h -> push_level h lvl e = Some h' -> part d h'.
Proof.
  intros P H. apply push_level_spec in H. destruct H as (x & Hx & ->). revert lvl x Hx.
  induction P as [|l l' d h (r & ->) P IH]; intros [|lvl] x Hx; cbn in Hx; try discriminate.
  - injection Hx as <-. cbn [lupd]. constructor; [|exact P]. exists (r ++ [e]). rewrite app_assoc. reflexivity.
  - cbn [lupd]. constructor; [exists r; reflexivity|]. apply IH. exact Hx.
Qed.
Lemma part_concat d h e : part d h -> In e (concat d) -> In e (concat h).
Proof.
  intros P. induction P as [|l l' d h (r & ->) P IH]; [intros []|]. cbn [concat]. rewrite !in_app_iff. tauto.
Qed.

Lemma resize_keeps s s' : resize_hqp s = Some s' -> f_hqp s' = f_hqp s /\ f_dec s' = f_dec s /\ f_nv s' = f_nv s.
Proof. unfold resize_hqp. intros H. repeat (ob H). injection H as <-. auto. Qed.
Lemma add_keeps dbg s C o s' r d : step dbg s (add_foot C o) = Ret s' r -> part d (f_hqp s) ->
  part d (f_hqp s') /\ f_dec s' = f_dec s /\ f_nv s' = f_nv s.
Proof.
  intros H P.
  assert (G : exists wr wm lvl b, add_contact s o wr wm lvl = Ret s' b).
  { unfold add_foot in H. destruct ((n0 <=? w_contact C)%num); cbn [step] in H;
      match type of H with context [add_contact s o ?a ?b ?l] => destruct (add_contact s o a b l) as [z u|z|] eqn:E; try discriminate; exists a, b, l, u end;
      cbn in H; congruence. }
  destruct G as (wr & wm & lvl & b & E). apply add_contact_spec in E. destruct E as (_ & x & s1 & q1 & q2 & q3 & _ & Hr & P1 & P2 & P3 & ->).
  apply resize_keeps in Hr. destruct Hr as (F1 & F2 & F3). cbn [f_hqp f_dec f_nv Formulation.w_in Formulation.w_eq w_contacts w_hqp w_heap].
  split; [|split; [exact F2|exact F3]]. cbn [f_hqp w_k] in F1. rewrite F1 in P1.
  eapply part_push; [|exact P3]. eapply part_push; [|exact P2]. eapply part_push; [exact P|exact P1].
Qed.

Lemma rem_keeps dbg s n s' b : invA s -> invB s -> In n (contact_names s) -> remove_contact_now dbg s n = Ret s' b ->
  f_dec s' = f_dec s /\ f_nv s' = f_nv s.
Proof.
  intros HA HB Hn H. destruct (remove_present dbg _ _ _ _ HA HB Hn H) as (c & s4 & q & i & _ & _ & Hz & -> & _).
  apply resize_keeps in Hz. destruct Hz as (_ & F2 & F3). split; assumption.
Qed.

(** A resized constraint holds only zeros. *)
Definition blank (k : constr K) : Prop :=
  (forall i j, mget (c_mat k) i j = n0) /\
  match c_kind k with CEq => forall i, vget (c_vec k) i = n0 | _ => forall i, vget (c_lb k) i = n0 /\ vget (c_ub k) i = n0 end.
Lemma cresize_blank (k k' : constr K) r c : c_kind k <> CBound -> cresize k r c = Some k' -> blank k'.
Proof.
  unfold cresize, blank. intros Hk H. destruct (c_kind k) eqn:E; [| |contradiction]; injection H as <-; cbn; repeat split; auto.
Qed.
Lemma resize_fold_blank n (l : list (K * nat)) : forall h h', Forall nobound h ->
  ofold (fun h e => resize_at n h (snd e)) l h = Some h' ->
  forall a k, nth_error h' a = Some k -> (In a (map snd l) \/ exists k0, nth_error h a = Some k0 /\ blank k0) -> blank k.
Proof.
  induction l as [|e l IH]; intros h h' Hb H a k Hk Ha; simpl in H.
  - injection H as <-. destruct Ha as [[]|(k0 & E & Z)]. congruence.
  - destruct (resize_at n h (snd e)) as [h1|] eqn:E; [|discriminate].
    unfold resize_at in E. destruct (nth_error h (snd e)) as [c|] eqn:Ec; [|discriminate]. cbn [obind] in E.
    ob E. ob E. injection E as <-.
    assert (Nc : c_kind c <> CBound) by (rewrite Forall_forall in Hb; apply Hb; eapply nth_error_In; eauto).
    assert (Z1 := cresize_blank _ _ _ _ Nc E1). destruct (cresize_zero _ _ _ _ Nc E1) as [_ K1].
    assert (Lt : snd e < List.length h) by (apply nth_error_Some; congruence).
    eapply IH; [|exact H|exact Hk|].
    + apply Forall_forall. intros y Hy. apply In_nth_error in Hy. destruct Hy as [i Hi].
      destruct (Nat.eq_dec (snd e) i) as [<-|Ne].
      * rewrite nth_error_lupd_eq in Hi by exact Lt. injection Hi as <-. unfold nobound. congruence.
      * rewrite nth_error_lupd_neq in Hi by exact Ne. rewrite Forall_forall in Hb. apply Hb. eapply nth_error_In; eauto.
    + destruct (Nat.eq_dec (snd e) a) as [<-|Ne].
      * right. exists a1. split; [apply nth_error_lupd_eq; exact Lt|exact Z1].
      * destruct Ha as [[X|X]|(k0 & X & Z)]; [contradiction|left; exact X|].
        right. exists k0. rewrite nth_error_lupd_neq by exact Ne. auto.
Qed.
Definition blanks s : Prop := forall a k, In a (map snd (concat (f_hqp s))) -> nth_error (f_heap s) a = Some k -> blank k.
Lemma resize_blanks s s' : Forall nobound (f_heap s) -> resize_hqp s = Some s' -> blanks s'.
Proof.
  intros Hb H. unfold resize_hqp in H. ob H. ob H. ob H. injection H as <-.
  intros x k Hx Hk. simpl in Hx, Hk.
  assert (Na : c_kind a <> CBound) by (rewrite Forall_forall in Hb; apply Hb; eapply nth_error_In; eauto).
  destruct (cresize_zero _ _ _ _ Na E0) as [_ K1].
  eapply resize_fold_blank; [|exact E1|exact Hk|left; exact Hx].
  apply Forall_forall. intros y Hy. apply In_nth_error in Hy. destruct Hy as [i Hi].
  assert (Lt : f_base s < List.length (f_heap s)) by (apply nth_error_Some; congruence).
  destruct (Nat.eq_dec (f_base s) i) as [<-|Ne].
  - rewrite nth_error_lupd_eq in Hi by exact Lt. injection Hi as <-. unfold nobound. congruence.
  - rewrite nth_error_lupd_neq in Hi by exact Ne. rewrite Forall_forall in Hb. apply Hb. eapply nth_error_In; eauto.
Qed.
Lemma push_in h lvl e h' x : @push_level (K * nat) h lvl e = Some h' -> In x (concat h') -> x = e \/ In x (concat h).
Proof.
  intros H. apply push_level_spec in H. destruct H as (l & Hl & ->). revert lvl Hl. induction h as [|z h IH]; intros [|lvl] Hl; cbn in Hl; try discriminate.
  - injection Hl as ->. cbn [lupd concat]. rewrite !in_app_iff. cbn [In]. intuition.
  - cbn [lupd concat]. rewrite !in_app_iff. intros [X|X]; [auto|]. destruct (IH _ Hl X); auto.
Qed.
Lemma add_blanks dbg s C o s' r : invA s -> step dbg s (add_foot C o) = Ret s' r -> blanks s'.
Proof.
  intros HA H.
  assert (G : exists wr wm lvl b, add_contact s o wr wm lvl = Ret s' b).
  { unfold add_foot in H. destruct ((n0 <=? w_contact C)%num); cbn [step] in H;
      match type of H with context [add_contact s o ?a ?b ?l] => destruct (add_contact s o a b l) as [z u|z|] eqn:E; try discriminate; exists a, b, l, u end;
      cbn in H; congruence. }
  destruct G as (wr & wm & lvl & b & E). apply add_contact_spec in E. destruct E as (_ & x & s1 & q1 & q2 & q3 & _ & Hr & P1 & P2 & P3 & ->).
  assert (B := resize_blanks (w_k s (f_k s + co_nforce x)) s1 (heap_nobound s (ia_kind _ HA)) Hr).
  intros a k Ha Hk. cbn [f_hqp f_heap w_contacts w_hqp w_heap Formulation.w_in Formulation.w_eq] in Ha, Hk.
  apply in_map_iff in Ha. destruct Ha as (e & <- & He).
  assert (N : forall i, nth_error (f_heap s1 ++ [new_eq (co_name x ++ "_motion_task")%string (co_mrows x) (nVar s1)]
                      ++ [new_ineq (co_name x ++ "_force_constraint")%string (co_frows x) (nVar s1)]
                      ++ [new_eq (co_name x ++ "_force_reg_task")%string (co_rrows x) (nVar s1)]) i = Some k ->
     List.length (f_heap s1) <= i -> blank k).
  { intros i Hi Hl. rewrite nth_error_app2 in Hi by exact Hl. destruct (i - List.length (f_heap s1)) as [|[|[|j]]]; cbn in Hi.
    - injection Hi as <-. split; intros; [|try split]; try (intros ?; try split); reflexivity.
    - injection Hi as <-. split; intros; [|try split]; try (intros ?; try split); reflexivity.
    - injection Hi as <-. split; intros; [|try split]; try (intros ?; try split); reflexivity.
    - destruct j; discriminate. }
  destruct (Nat.le_gt_cases (List.length (f_heap s1)) (snd e)) as [Hl|Hl]; [exact (N _ Hk Hl)|].
  rewrite nth_error_app1 in Hk by exact Hl. apply (B (snd e)); [|exact Hk]. apply in_map.
  destruct (push_in _ _ _ _ _ P3 He) as [X|X]; [subst e; cbn in Hl; exfalso; lia|].
  destruct (push_in _ _ _ _ _ P2 X) as [Y|Y]; [subst e; cbn in Hl; exfalso; lia|].
  destruct (push_in _ _ _ _ _ P1 Y) as [Z|Z]; [subst e; cbn in Hl; exfalso; lia|exact Z].
Qed.

(** What a solver sees through a part of the data. *)
Definition starts (P P' : hqpdata K) : Prop := Forall2 (fun l l' => exists r, l' = l ++ r) P P'.
Lemma part_seen s d h P : part d h -> map (map (deref s)) h = map (map (fun wc => (fst wc, Some (snd wc)))) P ->
  exists P1, py_view s d = map (map (fun wc => (fst wc, Some (snd wc)))) P1 /\ starts P1 P.
Proof.
  intros H. revert P. induction H as [|l l' d h (r & ->) H IH]; intros [|q P] E; cbn [map] in E; try discriminate.
  - exists []. split; [reflexivity|constructor].
  - injection E as E1 E2. destruct (IH P E2) as (P1 & A & B).
    rewrite map_app in E1. symmetry in E1. apply map_eq_app in E1. destruct E1 as (u & v & -> & U & _).
    exists (u :: P1). cbn [py_view map]. rewrite <- U. split; [f_equal; exact A|]. constructor; [exists v; reflexivity|exact B].
Qed.
Lemma soft_eq C nv na rf lf s cl0 cl1 w c : stands C nv na rf lf s -> problem_of s [cl0; cl1] -> In (w, c) cl1 -> c_kind c = CEq.
Proof.
  intros (_ & _ & _ & _ & l0 & l1 & E & _ & P1) H Hi. unfold hqp_shapes in E. rewrite H in E. cbn [map] in E. injection E as _ E.
  assert (I : In (w, Some (shape c)) l1).
  { rewrite <- E. rewrite map_map. apply in_map_iff. exists (w, c). split; [reflexivity|exact Hi]. }
  apply (Permutation_in _ P1) in I. apply in_map_iff in I. destruct I as ([w' [[m kd] rr]] & I1 & I2). unfold wide in I1. cbn [fst snd] in I1.
  assert (Ek : c_kind c = kd) by (unfold shape in I1; congruence). rewrite Ek. clear Ek I1.
  revert I2. unfold soft, foot_soft, feet. destruct rf, lf, ((n0 <=? w_contact C)%num); cbn; intros I2;
    repeat (destruct I2 as [I2|I2]; [congruence|]); destruct I2.
Qed.
End Gen.

Section Loop.
Context {K : num}.
Variables (dbg : bool) (C : conf K) (nv na : nat) (M0 : mat K) (H0 : vec K) (x y : cobj K).
Hypothesis Hrob : robot_ok nv M0 H0.
Hypothesis Hx : is_six x "contact_rfoot".
Hypothesis Hy : is_six y "contact_lfoot".
Hypothesis Hz : ((n0 : K) <? n0)%num = false.
Local Notation fit := (fit dbg (fun _ => True) C nv na M0 H0 x y).
Local Notation up := (up dbg (fun _ => True) C nv na M0 H0 x y).
Local Notation gstep := (gstep dbg C).

Lemma fit_stands b : fit b -> stands C nv na (b_rf b) (b_lf b) (b_f b).
Proof. exact (up_stands dbg (fun _ => True) C nv na M0 H0 _ _ Hrob Hx Hy _ _ _). Qed.
Lemma fit_good b : fit b -> reach (Formulation.step dbg) (good dbg) (init nv na M0 H0) (b_f b).
Proof.
  intros (cs & q0 & q1 & D & _). exact (legal_good dbg _ nv na M0 H0 _ (d_hist _ _ _ _ _ _ _ _ _ _ _ D)).
Qed.
Lemma fit_inv b : fit b -> invA (b_f b) /\ invB (b_f b).
Proof.
  intros (cs & q0 & q1 & D & _). destruct (desc_inv dbg _ nv na M0 H0 Hrob _ _ _ _ _ D) as (A & B & _). auto.
Qed.
Lemma fit_nv b : fit b -> f_nv (b_f b) = nv.
Proof. intros F. exact (proj1 (dims_reach dbg _ _ _ _ _ _ (fit_good b F))). Qed.
Lemma fit_k b : fit b -> f_k (b_f b) = 12 * count (b_rf b) (b_lf b).
Proof.
  intros F. assert (E := fit_nv b F). destruct (fit_stands b F) as (_ & N & _). unfold nVar in N. rewrite E in N.
  clear - N. lia.
Qed.
Lemma fit_up s rf lf : up rf lf s -> fit (mkBiped s rf lf).
Proof. auto. Qed.

(** A button. *)
Lemma press b r : fit b -> exists b' o, bstep dbg C b (pressed b r) = Ret b' o /\ fit b' /\
  b_rf b' = (if r then negb (b_rf b) else b_rf b) /\ b_lf b' = (if r then b_lf b else negb (b_lf b)) /\
  f_dec (b_f b') = f_dec (b_f b) /\
  ((if r then b_rf b else b_lf b) = false -> blanks (b_f b') /\ forall d, part d (f_hqp (b_f b)) -> part d (f_hqp (b_f b'))).
Proof.
  destruct b as [s rf lf]. intros F. assert (I := fit_inv _ F). cbn [b_f b_rf b_lf] in *. destruct I as (IA & IB).
  unfold pressed. cbn [b_rf b_lf].
  assert (Hadd : forall w : bool, (if w then rf else lf) = false -> exists s' o, Formulation.step dbg s (add_foot C (if w then 0 else 1)) = Ret s' o /\
     up (if w then true else rf) (if w then lf else true) s' /\ f_dec s' = f_dec s /\ (blanks s' /\ forall d, part d (f_hqp s) -> part d (f_hqp s'))).
  { intros w Hw. destruct (up_add dbg (fun _ => True) C nv na M0 H0 x y Hrob Hx Hy w rf lf s F Hw) as (s' & o & E & U).
    exists s', o. split; [exact E|]. split; [exact U|]. destruct (add_keeps dbg s C _ s' o _ E (part_refl (f_hqp s))) as (_ & D & _).
    split; [exact D|]. split; [exact (add_blanks dbg s C _ s' o IA E)|]. intros d Hd. exact (proj1 (add_keeps dbg s C _ s' o d E Hd)). }
  assert (Hrem : forall w : bool, (if w then rf else lf) = true -> exists s' o, Formulation.step dbg s (ORemContact (if w then "contact_rfoot" else "contact_lfoot") n0) = Ret s' o /\
     up (if w then false else rf) (if w then lf else false) s' /\ f_dec s' = f_dec s).
  { intros w Hw. destruct (up_remove dbg (fun _ => True) C nv na M0 H0 x y Hrob Hx Hy w rf lf s n0 F Hw Hz) as (s' & o & E & U).
    exists s', o. split; [exact E|]. split; [exact U|]. cbn [Formulation.step] in E. unfold remove_contact in E. rewrite Hz in E.
    destruct (remove_contact_now dbg s (if w then "contact_rfoot" else "contact_lfoot")) as [u v| |] eqn:Er; try discriminate.
    cbn in E. injection E as -> _. refine (proj1 (rem_keeps dbg s _ s' v IA IB _ Er)).
    destruct (fit_stands _ F) as (P & _). eapply Permutation_in; [symmetry; exact P|]. cbn [b_rf b_lf]. unfold feet.
    destruct w; rewrite Hw; [|destruct rf]; cbn; auto. }
  destruct r; [destruct rf eqn:Erf|destruct lf eqn:Elf]; subst; cbn [bstep b_f onb].
  - destruct (Hrem true eq_refl) as (s' & o & E & U & D). rewrite E. exists (mkBiped s' false lf), o. cbn [b_f b_rf b_lf].
    repeat (split; [assumption || reflexivity|]). discriminate.
  - destruct (Hadd true eq_refl) as (s' & o & E & U & D & B). rewrite E. exists (mkBiped s' true lf), o. cbn [b_f b_rf b_lf].
    repeat (split; [assumption || reflexivity|]). intros _. exact B.
  - destruct (Hrem false eq_refl) as (s' & o & E & U & D). rewrite E. exists (mkBiped s' rf false), o. cbn [b_f b_rf b_lf].
    repeat (split; [assumption || reflexivity|]). discriminate.
  - destruct (Hadd false eq_refl) as (s' & o & E & U & D & B). rewrite E. exists (mkBiped s' rf true), o. cbn [b_f b_rf b_lf].
    repeat (split; [assumption || reflexivity|]). intros _. exact B.
Qed.

(** computeProblemData. *)
Lemma comp b t e : fit b -> env_ok (b_f b) e -> exists s', py_compute dbg (b_f b) t e = Ret s' (f_hqp s') /\ fit (mkBiped s' (b_rf b) (b_lf b)) /\
  f_dec s' = false.
Proof.
  intros (cs & q0 & q1 & D & P) He. destruct (desc_compute dbg (fun _ => True) nv na M0 H0 Hrob _ _ _ _ _ t e D He I) as (s' & E & D' & _).
  exists s'. assert (Ec : exists u, compute dbg (b_f b) t e = Ret s' u).
  { cbn [Formulation.step] in E. destruct (compute dbg (b_f b) t e) as [z u| |]; try discriminate. cbn in E. exists u. congruence. }
  destruct Ec as (u & Ec). unfold py_compute. rewrite Ec. split; [reflexivity|]. split; [exists cs, q0, q1; auto|].
  exact (FormDecode.compute_not_decoded dbg _ _ _ _ E).
Qed.

(** solve, through a part of the present data. *)
Lemma solve_part b d (q : sst K) jk ans z : fit b -> part d (f_hqp (b_f b)) -> (exists e l r, d = (e :: l) :: r) -> solver_state Fast dbg q ->
  exists P q' o, levels_through (py_view (b_f b) d) = Some P /\ pwf (nVar (b_f b)) P /\ solve Fast dbg jk q P ans z = Ret q' o.
Proof.
  intros F Hd (e & l & r & Ed) Hq. destruct (problem_shape dbg nv na M0 H0 _ Hrob (fit_good b F)) as (cl0 & cl1 & E & Hne & W0 & W1 & _).
  destruct (part_seen (b_f b) d (f_hqp (b_f b)) _ Hd E) as (P1 & V & S1).
  assert (G : pwf (nVar (b_f b)) P1).
  { inversion S1 as [|a0 a1 P2 P3 (r0 & R0) S2 e1 e2]; subst. inversion S2 as [|b0 b1 P4 P5 (r1 & R1) S3 e3 e4]; subst. inversion S3; subst.
    exists a0, b0. split; [reflexivity|]. split.
    - intros ->. discriminate V.
    - split; [intros w c Hc; apply (W0 w); apply in_or_app; left; exact Hc|]. split; [intros w c Hc; apply (W1 w); apply in_or_app; left; exact Hc|].
      intros w c Hc. eapply soft_eq; [exact (fit_stands b F)|exact E|]. apply in_or_app. left; exact Hc. }
  destruct (accept Fast dbg jk q (nVar (b_f b)) P1 ans z) as (q' & o & Eq); [|exact G|].
  - split; [exact Hq|]. split; [exact I|]. discriminate.
  - exists P1, q', o. rewrite V, levels_map. auto.
Qed.
Lemma solver_next jk (q : sst K) P ans z q' o : solver_state Fast dbg q -> solve Fast dbg jk q P ans z = Ret q' o -> solver_state Fast dbg q'.
Proof.
  intros (j & h & st & R) H. exists j, h, st. eapply reach_step with (o := SSolve Fast P jk ans z); [exact R|exact I|]. cbn [sstep]. rewrite H. reflexivity.
Qed.

(** getAccelerations. *)
Lemma read b z : fit b -> f_dec (b_f b) = false -> nv <= vlen z -> 12 * count (b_rf b) (b_lf b) <= vlen z -> exists s' v, get (b_f b) GAcc z = Ret s' v /\ fit (mkBiped s' (b_rf b) (b_lf b)) /\ begins nv v z.
Proof.
  intros F D L L'. assert (E := fit_nv b F). assert (Ek := fit_k b F).
  assert (Ok : op_ok dbg (b_f b) (OGet GAcc z)).
  { split; [|exact I]. rewrite E, Ek. split; [exact L|exact L']. }
  destruct F as (cs & q0 & q1 & De & P). destruct (desc_get dbg (fun _ => True) nv na M0 H0 Hrob _ _ _ _ _ GAcc z De Ok) as (s' & r & Es & De').
  cbn [Formulation.step] in Es. destruct (get (b_f b) GAcc z) as [s1 v| |] eqn:G; try discriminate. cbn in Es. injection Es as -> _.
  exists s', v. split; [reflexivity|]. split; [exists cs, q0, q1; auto|].
  unfold get in G. destruct (decode (b_f b) z) as [s2|] eqn:Ed; [|discriminate]. injection G as -> <-.
  unfold decode in Ed. rewrite D in Ed. do 7 (ob Ed). injection Ed as <-. cbn [f_dv].
  unfold vhead, vsegment in *. 
  match goal with X : (if 0 + f_nv (b_f b) <=? vlen z then _ else _) = Some _ |- _ => destruct (0 + f_nv (b_f b) <=? vlen z); [|discriminate]; injection X as <- end.
  unfold begins. cbn. rewrite E. auto.
Qed.

(** ** Invariant *)
Definition ginv (g : gui K) : Prop :=
  fit (g_b g) /\ solver_state Fast dbg (g_q g) /\
  match g_at g with
  | Holds d => part d (f_hqp (b_f (g_b g))) /\ f_dec (b_f (g_b g)) = false /\ exists e l r, d = (e :: l) :: r
  | Solved z => nv <= vlen z /\ f_dec (b_f (g_b g)) = false
  | _ => True
  end.
Lemma ginv_step g ev : ginv g -> rule g ev -> exists g' o, gstep g ev = Ret g' o /\ ginv g'.
Proof.
  destruct g as [b p q]. intros (F & Q & G) (En & R). cbn [g_b g_at g_q] in *. unfold enabled in En. destruct ev as [r|t e|jk ans z|]; cbn [g_b g_at g_q GuiLoop.gstep] in *.
  - destruct (press b r F) as (b' & o & E & F' & _ & _ & D & A). unfold standing in R. cbn [g_b] in R. exists (mkGui b' p q), None.
    split; [destruct p; rewrite E; reflexivity|]. split; [exact F'|]. split; [exact Q|]. cbn [g_at g_b]. destruct p as [|d|z|]; auto.
    + destruct G as (G1 & G2 & G3). split; [apply A; [exact R|exact G1]|]. split; [congruence|exact G3].
    + destruct G as (G1 & G2). split; [exact G1|congruence].
  - destruct p as [|d|z|]; try contradiction. destruct (comp b t e F R) as (s' & E & F' & D). rewrite E. eexists _, _. split; [reflexivity|].
    split; [exact F'|]. split; [exact Q|]. cbn [g_at g_b b_f]. split; [apply part_refl|]. split; [exact D|].
    destruct (problem_shape dbg nv na M0 H0 _ Hrob (fit_good _ F')) as (cl0 & cl1 & P & Hne & _). cbn [b_f] in P. unfold problem_of, hqp in P.
    destruct (f_hqp s') as [|[|e0 l] r]; try discriminate; [|eauto]. destruct cl0; [contradiction|discriminate].
  - destruct p as [|d|z'|]; try contradiction. destruct G as (G1 & G2 & G3).
    destruct (solve_part b d q jk ans z F G1 G3 Q) as (P & q' & o & E & W & Es). rewrite E, Es.
    assert (Q' := solver_next _ _ _ _ _ _ _ Q Es). assert (Ez : snd o = z).
    { unfold solve in Es. destruct (prepare Fast dbg jk q P (default_flag Fast)); try discriminate. injection Es as _ <-. reflexivity. }
    destruct o as [st v]. cbn [snd] in Ez. subst v.
    destruct st; eexists _, _; (split; [reflexivity|]); split; try exact F; split; try exact Q'; cbn [g_at g_b]; auto.
    split; [|exact G2]. rewrite R. unfold nVar. rewrite (fit_nv b F). apply Nat.le_add_r.
  - destruct p as [|d|z|]; try contradiction. destruct G as (G1 & G2). destruct (read b z F G2 G1 (R z eq_refl)) as (s' & v & E & F' & _). rewrite E.
    eexists _, _. split; [reflexivity|]. split; [exact F'|]. split; [exact Q|exact I].
Qed.
Lemma ginv_reach g g' : ginv g -> reach gstep rule g g' -> ginv g'.
Proof.
  intros G R. induction R as [|u o v R IH Hr Ha]; [exact G|]. destruct (ginv_step u o IH Hr) as (v' & w & E & I').
  rewrite E in Ha. cbn in Ha. injection Ha as <-. exact I'.
Qed.

Lemma ginv_start e0 e1 b0 q0 : conf_ok C -> sizes_ok nv e0 -> sizes_ok nv e1 -> biped_new dbg C nv na M0 H0 x y e0 e1 = Some b0 ->
  solver_state Fast dbg q0 -> ginv (mkGui b0 Ready q0).
Proof.
  intros Hc S0 S1 E Q. destruct (start_ok dbg (fun _ => True) C nv na M0 H0 x y Hrob Hx Hy e0 e1 Hc S0 S1 I I) as (b & Eb & _ & _ & F).
  rewrite E in Eb. injection Eb as <-. split; [exact F|]. split; [exact Q|exact I].
Qed.
Lemma long_enough g z : 24 <= nv -> ginv g -> g_at g = Solved z -> rule g Read.
Proof.
  intros Hnv (F & Q & G) E. rewrite E in G. split; [unfold enabled; rewrite E; exact I|]. intros z' E'. assert (z' = z) by congruence. subst z'.
  destruct G as (G1 & _). clear - G1 Hnv. unfold count. destruct (b_rf (g_b g)), (b_lf (g_b g)); cbn; lia.
Qed.

(** ** What is read *)
Lemma press_at g g' : ginv g -> reach gstep only_press g g' -> g_at g' = g_at g /\ g_q g' = g_q g /\ ginv g'.
Proof.
  intros G R. induction R as [|u o v R IH (Hr & r & ->) Ha]; [auto|]. destruct IH as (A & B & D).
  destruct (ginv_step u _ D Hr) as (v' & w & E & I'). rewrite E in Ha. cbn in Ha. injection Ha as <-.
  cbn [GuiLoop.gstep] in E. destruct (bstep dbg C (g_b u) (pressed (g_b u) r)) as [b1 o1| |]; try discriminate.
  destruct (g_at u) eqn:Eu; injection E as <- _; cbn [g_at g_q]; repeat split; try congruence; apply I'.
Qed.
Lemma late g z g' : ginv g -> g_at g = Solved z -> reach gstep only_press g g' -> 12 * count (b_rf (g_b g')) (b_lf (g_b g')) <= vlen z ->
  exists g2 v, gstep g' Read = Ret g2 (Some v) /\ begins nv v z /\ g_at g2 = Ready.
Proof.
  intros G E R L. destruct (press_at g g' G R) as (A & _ & (F & Q & G')). rewrite E in A. rewrite A in G'. destruct G' as (G1 & G2).
  destruct (read _ z F G2 G1 L) as (s' & v & Eg & _ & B). unfold GuiLoop.gstep. rewrite A, Eg. eexists _, v. split; [reflexivity|]. split; [exact B|reflexivity].
Qed.
Lemma too_short g z : ginv g -> g_at g = Solved z -> vlen z < 12 * count (b_rf (g_b g)) (b_lf (g_b g)) -> gstep g Read = Undef.
Proof.
  intros (F & Q & G) E L. rewrite E in G. destruct G as (G1 & G2). unfold GuiLoop.gstep. rewrite E. rewrite <- (fit_k _ F) in L.
  unfold get, decode. rewrite G2. destruct (dyn_blocks (b_f (g_b g))) as [dd|]; [|reflexivity]. cbn [obind].
  destruct (vhead z (f_nv (b_f (g_b g)))) as [dv|]; [|reflexivity]. cbn [obind]. unfold vtail.
  assert (Lb : (f_k (b_f (g_b g)) <=? vlen z) = false) by (apply Nat.leb_gt; exact L). rewrite Lb. reflexivity.
Qed.
Lemma fresh g t e g1 o jk ans z g2 o2 : ginv g -> g_at g = Ready -> rule g (Comp t e) -> gstep g (Comp t e) = Ret g1 o ->
  gstep g1 (Solve jk ans z) = Ret g2 o2 -> optimum Fast ans ->
  g_at g2 = Solved z /\ exists P, problem_of (b_f (g_b g1)) P /\ solve Fast dbg jk (g_q g) P ans z = Ret (g_q g2) (St_optimal, z).
Proof.
  intros (F & Q & _) A (_ & He) E1 E2 O. unfold GuiLoop.gstep in E1. rewrite A in E1. destruct (comp _ t e F He) as (s' & Ec & F' & _).
  rewrite Ec in E1. injection E1 as <- _. cbn [GuiLoop.gstep g_at g_b g_q b_f] in E2 |- *.
  destruct (problem_shape dbg nv na M0 H0 _ Hrob (fit_good _ F')) as (cl0 & cl1 & P & _). cbn [b_f] in P.
  change (py_view s' (f_hqp s')) with (hqp s') in E2. rewrite P, levels_map in E2.
  destruct (solve Fast dbg jk (g_q g) [cl0; cl1] ans z) as [q' [st v]| |] eqn:Es; try discriminate.
  destruct (solve_status _ _ _ _ _ _ _ _ _ _ Es) as (St & _ & Yx & _).
  assert (Hh : handled Fast ans) by (destruct ans; cbn in O |- *; congruence || auto).
  assert (Est : st = St_optimal) by (apply (proj1 (St Hh)); exact O). assert (Ev := Yx O). subst st v.
  injection E2 as <- _. cbn [g_at g_q]. split; [reflexivity|]. exists [cl0; cl1]. auto.
Qed.

(** ** Breaking a contact in between *)
Lemma rem_force (s : fstate K) n s' b : invA s -> invB s -> In n (contact_names s) -> remove_contact_now dbg s n = Ret s' b ->
  exists a l k kb, nth_error (f_hqp s) 0 = Some l /\ In a (map snd l) /\ In (f_base s) (map snd l) /\
    nth_error (f_heap s') a = Some k /\ c_kind k = CIneq /\ mcols (c_mat k) = nVar s /\
    nth_error (f_heap s') (f_base s) = Some kb /\ c_kind kb = CEq /\ mcols (c_mat kb) = nVar s'.
Proof.
  intros HA HB Hn H. destruct (remove_present dbg _ _ _ _ HA HB Hn H) as (c & s4 & q & i & Hc & En & Hzz & -> & _).
  match type of Hzz with resize_hqp ?z = _ => set (s3 := z) in * end.
  assert (HP : preA s3).
  { destruct (invA_preA _ HA) as [Pb Pk Pa]. constructor; auto. unfold s3. cbn.
    rewrite Forall_forall in Pa |- *. intros e He. apply Pa.
    rewrite concat_map_filter in He. apply filter_In in He. apply He. }
  destruct (resize_hqp_spec _ _ HP Hzz) as ((_ & R1 & R2) & Es).
  destruct (b_con _ HB c Hc) as ([[[[m nf] mrr] frr] rr] & Hok). destruct (con_name _ _ _ _ _ _ _ Hok) as [En' _].
  destruct Hok as (_ & _ & If & _ & _ & Lf & _). assert (Emn : m = n) by congruence. rewrite Emn in If.
  destruct Lf as (l & El & Il). destruct (b_base _ HB) as (l' & El' & Ib). assert (l' = l) by congruence. subst l'.
  unfold info in If. destruct (nth_error (shapes s) (cl_force c)) as [[[[n1' kd] r1] cols]|] eqn:Ea; [|discriminate]. cbn in If. injection If as -> -> ->.
  assert (Cols : cols = nVar s).
  { assert (Cc := ia_cols _ HA). rewrite Forall_forall in Cc. apply in_map_iff in Il. destruct Il as (e & Ee & Il).
    destruct (Cc e) as (a1 & a2 & a3 & X); [apply in_concat; exists l; split; [eapply nth_error_In; exact El|exact Il]|].
    rewrite Ee in X. congruence. }
  subst cols. destruct (ia_base _ HA) as (cb & Eb & _).
  assert (Nin : ~ In (cl_force c) (f_base s3 :: map snd (concat (f_hqp s3)))).
  { intros [X|X].
    - change (f_base s3) with (f_base s) in X. rewrite X in Eb. rewrite Ea in Eb. injection Eb as _ X1 _ _. discriminate X1.
    - unfold s3 in X. cbn in X. apply in_map_iff in X. destruct X as (e & Ee & X). rewrite concat_map_filter in X. apply filter_In in X. destruct X as (_ & X).
      unfold nm, name_at in X. rewrite Ee in X. unfold shapes in Ea. rewrite nth_error_map in Ea. destruct (nth_error (f_heap s) (cl_force c)) as [kk|]; [|discriminate].
      cbn in Ea. unfold shape in Ea. injection Ea as Ea _ _ _. unfold not3 in X. rewrite Ea in X. rewrite String.eqb_refl in X. rewrite andb_false_r in X. discriminate. }
  assert (Xa := R2 (cl_force c) Nin). change (shapes s3) with (shapes s) in Xa. rewrite Ea in Xa.
  assert (Xb := R1 (f_base s) _ Eb (or_introl eq_refl)).
  apply nth_shape in Xa. destruct Xa as (k & Xa1 & Xa2). apply nth_shape in Xb. destruct Xb as (kb & Xb1 & Xb2).
  unfold shape in Xa2. unfold set_cols, shape in Xb2. cbn [fst] in Xb2.
  assert (Nn : nVar (w_contacts s4 (reindex s4 0 (cflt s n (f_contacts s)))) = nVar s3) by (rewrite Es; reflexivity).
  exists (cl_force c), l, k, kb. split; [exact El|]. split; [exact Il|]. split; [exact Ib|]. split; [exact Xa1|]. split; [congruence|]. split; [congruence|].
  split; [exact Xb1|]. split; [congruence|]. rewrite Nn. congruence.
Qed.
Lemma stale g t e g1 o r : ginv g -> g_at g = Ready -> rule g (Comp t e) -> gstep g (Comp t e) = Ret g1 o -> standing g1 r = true ->
  exists g2 o2, gstep g1 (Press r) = Ret g2 o2 /\ forall jk ans z, gstep g2 (Solve jk ans z) = Undef.
Proof.
  intros (F & Q & _) A (_ & He) E1 St. unfold GuiLoop.gstep in E1. rewrite A in E1. destruct (comp _ t e F He) as (s' & Ec & F' & _).
  rewrite Ec in E1. injection E1 as <- _. set (b1 := mkBiped s' (b_rf (g_b g)) (b_lf (g_b g))) in *.
  destruct (press b1 r F') as (b2 & o2 & Ep & F2 & Er & El & _). unfold GuiLoop.gstep at 1. cbn [g_b g_at g_q]. rewrite Ep. eexists _, _. split; [reflexivity|].
  intros jk ans z. cbn [GuiLoop.gstep g_at g_b g_q].
  destruct (fit_inv b1 F') as (IA & IB). destruct (fit_stands b1 F') as (Pn & N1 & _). destruct (fit_stands b2 F2) as (_ & N2 & _).
  unfold standing in St. cbn [g_b] in St.
  assert (Nn : nVar (b_f b2) < nVar (b_f b1)).
  { rewrite N1, N2, Er, El. clear - St. unfold count. destruct r; rewrite St; [destruct (b_lf b1)|destruct (b_rf b1)]; cbn [negb]; lia. }
  assert (Rm : exists b, remove_contact_now dbg s' (if r then "contact_rfoot" else "contact_lfoot") = Ret (b_f b2) b).
  { unfold pressed in Ep. destruct r; rewrite St in Ep; cbn [bstep Formulation.step] in Ep; unfold remove_contact in Ep; rewrite Hz in Ep; cbn [b_f b1] in Ep;
      match type of Ep with context [remove_contact_now dbg s' ?n] => destruct (remove_contact_now dbg s' n) as [u v| |] eqn:X; try discriminate end;
      cbn in Ep; injection Ep as <- _; cbn [b_f]; eauto. }
  destruct Rm as (b & Rm).
  assert (Hn : In (if r then "contact_rfoot" else "contact_lfoot") (contact_names s')).
  { change s' with (b_f b1). eapply Permutation_in; [symmetry; exact Pn|]. unfold feet. destruct r; rewrite St; [|destruct (b_rf b1)]; cbn; auto. }
  destruct (rem_force s' _ _ _ IA IB Hn Rm) as (a & l & k & kb & Hl & Ia & Ib & Hk & Kk & Ck & Hkb & Kb & Ckb).
  destruct (levels_through (py_view (b_f b2) (f_hqp s'))) as [P|] eqn:EP; [|reflexivity].
  assert (L2 : List.length (f_hqp s') = 2) by exact (FormLevels.two_levels dbg _ nv na M0 H0 s' (fit_good _ F')).
  destruct (f_hqp s') as [|l0 [|l1 [|]]]; try discriminate. cbn in Hl. injection Hl as ->.
  cbn [py_view map levels_through] in EP. destruct (through (map (deref (b_f b2)) l)) as [cl0|] eqn:T0; [|discriminate]. cbn [obind] in EP.
  destruct (through (map (deref (b_f b2)) l1)) as [cl1|]; [|discriminate]. cbn [obind] in EP. injection EP as <-.
  assert (In1 : exists w, In (w, k) cl0).
  { apply in_map_iff in Ia. destruct Ia as ([w a'] & <- & Ia). exists w. apply (through_in _ _ T0). apply in_map_iff. exists (w, a'). split; [|exact Ia].
    unfold deref. cbn [fst snd] in *. rewrite Hk. reflexivity. }
  assert (In2 : exists w, In (w, kb) cl0).
  { apply in_map_iff in Ib. destruct Ib as ([w a'] & Ea & Ib). exists w. apply (through_in _ _ T0). apply in_map_iff. exists (w, a'). split; [|exact Ib].
    unfold deref. cbn [fst snd] in *. rewrite Ea, Hkb. reflexivity. }
  destruct In1 as (w1 & In1), In2 as (w2 & In2).
  unfold solve. cbn [prepare List.length Nat.ltb Nat.leb]. replace (level0 Fast dbg jk (g_q g) cl0) with (@None (sst K)); [reflexivity|].
  destruct cl0 as [|wc cl0]; [destruct In1|]. cbn [level0]. destruct (ccols (snd wc)) as [n|]; [|reflexivity]. cbn [obind].
  destruct (counts Fast n (wc :: cl0)) as [cn|] eqn:Ecn; [|reflexivity]. exfalso. apply counts_spec in Ecn. destruct Ecn as (W & _).
  assert (W1 := W _ _ In1). assert (W2 := W _ _ In2). unfold cwf in W1, W2. rewrite Kk in W1. rewrite Kb in W2. destruct W1 as (W1 & _), W2 as (W2 & _).
  change (nVar (b_f b1)) with (nVar s') in Nn. clear - W1 W2 Ck Ckb Nn. lia.
Qed.
End Loop.

(** ** Adding a contact in between: the solver is given zeros *)
Section Coast.
Variables (dbg : bool) (C : conf Rnum) (nv na : nat) (M0 : mat Rnum) (H0 : vec Rnum) (x y : cobj Rnum).
Hypothesis Hrob : robot_ok nv M0 H0.
Hypothesis Hx : is_six x "contact_rfoot".
Hypothesis Hy : is_six y "contact_lfoot".
Local Notation ginv := (ginv dbg C nv na M0 H0 x y).
Local Notation gstep := (gstep dbg C).
Local Notation fit := (fit dbg (fun _ => True) C nv na M0 H0 x y).
Lemma Rz : ((n0 : Rnum) <? n0)%num = false.
Proof. cbn. unfold Rltb. destruct (Rlt_dec 0 0) as [X|X]; [exfalso; lra|reflexivity]. Qed.

Lemma blank_row (c : constr Rnum) (z : nat -> R) i : blank c -> qrow (c_mat c) z i = 0%R.
Proof.
  intros (B & _). unfold qrow. apply rsum_zero. intros j Hj. assert (E : mget (c_mat c) i j = 0%R) by exact (B i j). rewrite E. ring.
Qed.
Lemma blank_sat (c : constr Rnum) z : blank c -> c_kind c <> CBound -> sat c z.
Proof.
  intros B Hk. assert (L : forall i, rsum (mcols (c_mat c)) (fun j => mget (c_mat c) i j * z j)%R = 0%R) by exact (fun i => blank_row c z i B).
  destruct B as (B1 & B2). unfold sat, lhs. destruct (c_kind c); [| |contradiction].
  - intros i Hi. rewrite L. symmetry. apply B2.
  - intros i Hi. rewrite L. destruct (B2 i) as (E1 & E2). cbn in E1, E2. rewrite E1, E2. lra.
Qed.
Lemma sq_zero n z : (sqnorm n z <= 0)%R -> forall i, i < n -> z i = 0%R.
Proof.
  induction n as [|n IH]; intros H i Hi; [inversion Hi|].
  unfold sqnorm in *. change (rsum (S n) (fun i => z i * z i)%R <= 0)%R in H. change ((rsum n (fun i => z i * z i) <= 0)%R -> forall i, i < n -> z i = 0%R) in IH.
  rewrite rsum_S in H. assert (N : (0 <= rsum n (fun i => z i * z i))%R) by (apply rsum_nonneg; intros; nra).
  assert (S0 : (0 <= z n * z n)%R) by nra. assert (Z : z n = 0%R) by nra.
  destruct (Nat.eq_dec i n) as [->|Ne]; [exact Z|]. apply IH; [lra|lia].
Qed.
Lemma sq_of_zero n : sqnorm n (fun _ => 0%R) = 0%R.
Proof. unfold sqnorm. apply rsum_zero. intros. ring. Qed.

Lemma no_cost (cl1 : level Rnum) (w : nat -> R) : (forall u c, In (u, c) cl1 -> blank c /\ c_kind c = CEq) -> lsum (fun wc => task_cost wc w) cl1 = 0%R.
Proof.
  intros B1. induction cl1 as [|[wt c] l IH]; [reflexivity|].
  change (task_cost (wt, c) w + lsum (fun wc => task_cost wc w) l = 0)%R. rewrite IH by (intros w' c' H; apply (B1 w'); right; exact H).
  destruct (B1 wt c (or_introl eq_refl)) as (B & Hk). unfold task_cost. cbn [fst snd].
  assert (Z : sqnorm (mrows (c_mat c)) (residual c w) = 0%R).
  { unfold sqnorm. apply rsum_zero. intros i Hi. unfold residual. rewrite (blank_row c w i B). destruct B as (_ & B2). rewrite Hk in B2.
    assert (E : vget (c_vec c) i = 0%R) by exact (B2 i). rewrite E. ring. }
  rewrite Z. ring.
Qed.
Lemma nothing_asked jk (q : sst Rnum) n cl0 cl1 ans z q' o : solver_state Fast dbg q -> cl0 <> [] -> lwf n cl0 ->
  (forall w c, In (w, c) cl0 -> blank c /\ c_kind c <> CBound) -> (forall w c, In (w, c) cl1 -> blank c /\ c_kind c = CEq) ->
  solve Fast dbg jk q [cl0; cl1] ans z = Ret q' o -> optimum Fast ans -> exact_answer Fast q' ans z ->
  forall i, i < n -> vget z i = 0%R.
Proof.
  intros S Hne W0 B0 B1 Hs O Ex. destruct (Ex O) as (_ & Mx).
  assert (N : q_n q' = n).
  { destruct o as [st v]. apply solve_prepare in Hs as (q1 & Ep & -> & _). cbn [w_out q_n].
    destruct (SolverSizes.level0_ok Fast dbg jk q n cl0 cl1 (SolverSizes.state_sized _ _ _ S) Hne W0 I) as (u & Eu & _ & Nu); [discriminate|].
    cbn [prepare List.length Nat.ltb Nat.leb] in Ep. rewrite Eu in Ep.
    pose proof (SolverSizes.level1_dims Fast (default_flag Fast) u cl1) as D. rewrite Ep in D. destruct D as [_ D]. rewrite D. exact Nu. }
  assert (Fz : qp_feasible Fast q' (fun _ => 0%R)).
  { apply (solve_feasible Fast dbg jk q cl0 [cl1] ans z q' o S I Hs). split; [|intros X; discriminate X].
    intros w c Hc. destruct (B0 w c Hc). apply blank_sat; assumption. }
  specialize (Mx _ Fz). destruct (solve_cost _ _ _ _ _ _ _ _ _ _ S Hs) as (k & Ck). rewrite !Ck in Mx. rewrite N in Mx.
  assert (T := fun w => no_cost cl1 w B1).
  unfold least_squares in Mx. rewrite !T, sq_of_zero in Mx. cbn [solve_reg] in Mx. apply sq_zero. lra.
Qed.

Lemma only_added g1 d g2 : ginv g1 -> g_at g1 = Holds d -> reach gstep only_press g1 g2 -> g2 = g1 \/ blanks (b_f (g_b g2)).
Proof.
  intros G E R. induction R as [|u o v R IH (Hr & r & ->) Ha]; [left; reflexivity|]. right. clear IH.
  destruct (press_at dbg C nv na M0 H0 x y Hrob Hx Hy Rz g1 u G R) as (A & _ & (F & _)). rewrite E in A.
  destruct Hr as (_ & Hr). rewrite A in Hr. unfold standing in Hr.
  destruct (press dbg C nv na M0 H0 x y Hrob Hx Hy Rz (g_b u) r F) as (b' & w & Ep & _ & _ & _ & _ & B).
  unfold GuiLoop.gstep in Ha. rewrite Ep in Ha. cbn in Ha. injection Ha as <-. cbn [g_b]. apply B. exact Hr.
Qed.
Lemma held g t e g1 o g2 : ginv g -> g_at g = Ready -> rule g (Comp t e) -> gstep g (Comp t e) = Ret g1 o ->
  reach gstep only_press g1 g2 -> (b_rf (g_b g2), b_lf (g_b g2)) <> (b_rf (g_b g1), b_lf (g_b g1)) ->
  exists d, g_at g2 = Holds d /\ fit (g_b g2) /\ solver_state Fast dbg (g_q g2) /\ part d (f_hqp (b_f (g_b g2))) /\ (exists e l r, d = (e :: l) :: r) /\
    forall cl0 cl1, levels_through (py_view (b_f (g_b g2)) d) = Some [cl0; cl1] ->
      forall l w c, In l [cl0; cl1] -> In (w, c) l -> blank c /\ c_kind c <> CBound.
Proof.
  intros G A Hr E1 R Nf.
  destruct (ginv_step dbg C nv na M0 H0 x y Hrob Hx Hy Rz g _ G Hr) as (g1' & o' & E1' & G1). rewrite E1 in E1'. injection E1' as <- <-.
  assert (A1 : exists d, g_at g1 = Holds d).
  { unfold GuiLoop.gstep in E1. rewrite A in E1. destruct (py_compute dbg (b_f (g_b g)) t e); try discriminate. injection E1 as <- _. eexists; reflexivity. }
  destruct A1 as (d & A1). destruct (only_added g1 d g2 G1 A1 R) as [->|B]; [contradiction Nf; reflexivity|].
  destruct (press_at dbg C nv na M0 H0 x y Hrob Hx Hy Rz g1 g2 G1 R) as (A2 & _ & (F & Q & G2)). rewrite A1 in A2. rewrite A2 in G2. destruct G2 as (Pd & _ & Ne).
  exists d. repeat (split; [assumption|]). intros cl0 cl1 El l w c Hl Hc.
  assert (Em : py_view (b_f (g_b g2)) d = map (map (fun wc => (fst wc, Some (snd wc)))) [cl0; cl1]).
  { destruct (problem_shape dbg nv na M0 H0 _ Hrob (fit_good dbg C nv na M0 H0 x y _ F)) as (c0 & c1 & Ep & _).
    destruct (part_seen _ d _ _ Pd Ep) as (P1 & V & _). rewrite V in El. rewrite levels_map in El. injection El as ->. exact V. }
  assert (Hv : In (map (fun wc => (fst wc, Some (snd wc))) l) (py_view (b_f (g_b g2)) d)) by (rewrite Em; apply in_map; exact Hl).
  unfold py_view in Hv. apply in_map_iff in Hv. destruct Hv as (l' & El' & Hl').
  assert (Hw : In (w, Some c) (map (deref (b_f (g_b g2))) l')) by (rewrite El'; apply in_map_iff; exists (w, c); auto).
  apply in_map_iff in Hw. destruct Hw as ([w' a] & Ew & Ha). unfold deref in Ew. cbn [fst snd] in Ew. injection Ew as _ Ew. split.
  - apply (B a); [|exact Ew]. apply in_map_iff. exists (w', a). split; [reflexivity|]. eapply part_concat; [exact Pd|]. apply in_concat. eauto.
  - destruct (fit_inv dbg C nv na M0 H0 x y Hrob _ F) as (IA & _). assert (Nb := heap_nobound _ (ia_kind _ IA)). rewrite Forall_forall in Nb. apply Nb. eapply nth_error_In; exact Ew.
Qed.
Lemma coast g t e g1 o g2 jk ans z g3 o3 : ginv g -> g_at g = Ready -> rule g (Comp t e) -> gstep g (Comp t e) = Ret g1 o ->
  reach gstep only_press g1 g2 -> (b_rf (g_b g2), b_lf (g_b g2)) <> (b_rf (g_b g1), b_lf (g_b g1)) ->
  gstep g2 (Solve jk ans z) = Ret g3 o3 -> optimum Fast ans -> exact_answer Fast (g_q g3) ans z ->
  g_at g3 = Solved z /\ forall i, i < nVar (b_f (g_b g3)) -> vget z i = 0%R.
Proof.
  intros G A Hr E1 R Nf Es O Ex. destruct (held g t e g1 o g2 G A Hr E1 R Nf) as (d & A2 & F & Q & Pd & Ne & Cell).
  unfold GuiLoop.gstep in Es. rewrite A2 in Es.
  destruct (solve_part dbg C nv na M0 H0 x y Hrob Hx Hy (g_b g2) d (g_q g2) jk ans z F Pd Ne Q) as (P & q' & out & El & (cl0 & cl1 & -> & Hne & W0 & W1 & Keq) & Esv).
  rewrite El, Esv in Es. destruct out as [st v]. destruct (solve_status _ _ _ _ _ _ _ _ _ _ Esv) as (St & _ & Yx & _).
  assert (Hh : handled Fast ans) by (cbn in O |- *; congruence).
  assert (Est : st = St_optimal) by (apply (proj1 (St Hh)); exact O). assert (Ev := Yx O). subst st v.
  injection Es as <- _. cbn [g_at g_q g_b] in *. split; [reflexivity|]. specialize (Cell cl0 cl1 El).
  apply (nothing_asked jk (g_q g2) _ cl0 cl1 ans z q' (St_optimal, z) Q Hne W0); auto.
  - intros w c Hc. apply (Cell cl0 w c); cbn; auto.
  - intros w c Hc. split; [apply (Cell cl1 w c); cbn; auto|exact (Keq w c Hc)].
Qed.
(** The answer exists. *)
Lemma zero_answer jk (q : sst Rnum) n (cl0 cl1 : level Rnum) (z : vec Rnum) q' o : solver_state Fast dbg q -> cl0 <> [] -> lwf n cl0 ->
  (forall w c, In (w, c) cl0 -> blank c /\ c_kind c <> CBound) -> (forall w c, In (w, c) cl1 -> blank c /\ c_kind c = CEq) ->
  (forall i, vget z i = 0%R) -> solve Fast dbg jk q [cl0; cl1] F_optimal z = Ret q' o -> exact_answer Fast q' F_optimal z.
Proof.
  intros S Hne W0 B0 B1 Zz Hs _. split.
  - apply (solve_feasible Fast dbg jk q cl0 [cl1] F_optimal z q' o S I Hs). split; [|intros X; discriminate X].
    intros w c Hc. destruct (B0 w c Hc). apply blank_sat; assumption.
  - intros w _. destruct (solve_cost _ _ _ _ _ _ _ _ _ _ S Hs) as (k & Ck). rewrite !Ck. unfold least_squares. rewrite !(no_cost cl1 _ B1).
    assert (Z0 : sqnorm (q_n q') (vget z) = 0%R) by (unfold sqnorm; apply rsum_zero; intros i _; rewrite Zz; ring).
    rewrite Z0. cbn [solve_reg]. assert (N : (0 <= sqnorm (q_n q') w)%R) by (unfold sqnorm; apply rsum_nonneg; intros; nra). lra.
Qed.
Lemma coast_possible g t e g1 o g2 jk : ginv g -> g_at g = Ready -> rule g (Comp t e) -> gstep g (Comp t e) = Ret g1 o ->
  reach gstep only_press g1 g2 -> (b_rf (g_b g2), b_lf (g_b g2)) <> (b_rf (g_b g1), b_lf (g_b g1)) ->
  let z := vzero (nVar (b_f (g_b g2))) in
  rule g2 (Solve jk F_optimal z) /\ exists g3 o3, gstep g2 (Solve jk F_optimal z) = Ret g3 o3 /\ exact_answer Fast (g_q g3) F_optimal z.
Proof.
  intros G A Hr E1 R Nf z. destruct (held g t e g1 o g2 G A Hr E1 R Nf) as (d & A2 & F & Q & Pd & Ne & Cell).
  split; [split; [unfold enabled; rewrite A2; exact I|reflexivity]|].
  destruct (solve_part dbg C nv na M0 H0 x y Hrob Hx Hy (g_b g2) d (g_q g2) jk F_optimal z F Pd Ne Q) as (P & q' & out & El & (cl0 & cl1 & -> & Hne & W0 & W1 & Keq) & Esv).
  unfold GuiLoop.gstep. rewrite A2, El, Esv. destruct out as [st v]. specialize (Cell cl0 cl1 El).
  assert (X : exact_answer Fast q' F_optimal z).
  { apply (zero_answer jk (g_q g2) _ cl0 cl1 z q' (st, v) Q Hne W0); auto.
    - intros w c Hc. apply (Cell cl0 w c); cbn; auto.
    - intros w c Hc. split; [apply (Cell cl1 w c); cbn; auto|exact (Keq w c Hc)]. }
  destruct st; eexists _, _; (split; [reflexivity|]); exact X.
Qed.
End Coast.
