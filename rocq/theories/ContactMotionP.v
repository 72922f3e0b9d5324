(** Proofs about the motion tasks of the contacts. *)
From Coq Require Import String List Arith Bool ZArith Reals Lia Lra.
From Verif Require Import Scalar Outcome Linalg Constraint FormPhysSpec RSum Masks MaskReal FrameTasks FrameTasksP FrameTasksR FrameRefute FrameSetters ContactMotion.
Import ListNotations.
Open Scope list_scope.
Open Scope nat_scope.

(** * Specification *)
(** What the user has asked for: gains, placement to hold, axes. *)
Record wish := mkWish { u_kp : rvec; u_kd : rvec; u_R : rmat; u_p : rvec; u_local : bool }.
Definition no_wish : wish := mkWish (fun _ => 0%R) (fun _ => 0%R) (fun i j => if i =? j then 1%R else 0%R) (fun _ => 0%R) true.
(** Effect of a call; gains of a wrong size ([g] is the number of gains) are rejected. *)
Definition tell (six : bool) (w : wish) (o : mop Rnum) : wish :=
  let g := if six then 6 else 3 in
  match o with
  | MKp _ v => if vlen v =? g then mkWish (vget v) (u_kd w) (u_R w) (u_p w) (u_local w) else w
  | MKd _ v => if vlen v =? g then mkWish (u_kp w) (vget v) (u_R w) (u_p w) (u_local w) else w
  | MRef R p => mkWish (u_kp w) (u_kd w) R p (u_local w)
  | MLocal b => if six then w else mkWish (u_kp w) (u_kd w) (u_R w) (u_p w) b
  | MCompute _ => w
  end.
Definition told (six : bool) (l : list (mop Rnum)) : wish := fold_left (tell six) l no_wish.
(** The law: the frame is driven to the placement and held there. [a]: acceleration of the
    frame (linear, then angular). *)
Definition holds_point (w : wish) (d : fdata Rnum) (a : rvec) : Prop :=
  if u_local w then
    forall i, i < 3 -> a i = (u_kp w i * rot (tr (d_R d)) (vminus (u_p w) (d_p d)) i - u_kd w i * d_v d i)%R
  else
    forall i, i < 3 -> rot (d_R d) a i = (u_kp w i * (u_p w i - d_p d i) - u_kd w i * rot (d_R d) (d_v d) i)%R.
Definition holds_frame (log3 : rmat -> rvec) (w : wish) (d : fdata Rnum) (a : rvec) : Prop :=
  (forall i, i < 3 -> a i = (u_kp w i * rot (tr (d_R d)) (vminus (u_p w) (d_p d)) i - u_kd w i * d_v d i)%R) /\
  (forall i, i < 3 -> ang a i = (u_kp w (3 + i)%nat * rot_error log3 (d_R d) (u_R w) i - u_kd w (3 + i)%nat * ang (d_v d) i)%R).

(** * Masks *)
Lemma lin_on i : i < 6 -> on (@lin_mask Rnum) i <-> i < 3.
Proof.
  intros Hi. unfold on, lin_mask. cbn [vget]. destruct (Nat.ltb_spec i 3); change (@n1 Rnum) with 1%R; change (@n0 Rnum) with 0%R; split; intros; try lia; lra.
Qed.
Lemma lin_01 : mask01 (@lin_mask Rnum).
Proof. intros i Hi. unfold lin_mask. cbn [vget]. destruct (i <? 3); [right|left]; apply Reqb_true; reflexivity. Qed.
Lemma lin_ons : ons 6 (@lin_mask Rnum) = [0; 1; 2].
Proof.
  assert (A : (@n1 Rnum =? @n1 Rnum)%num = true) by (apply Reqb_true; reflexivity).
  assert (B : (@n0 Rnum =? @n1 Rnum)%num = false) by (apply Reqb_false; change (@n0 Rnum) with 0%R; change (@n1 Rnum) with 1%R; lra).
  unfold ons, lin_mask. cbn [seq vget filter Nat.ltb Nat.leb]. rewrite A, B. reflexivity.
Qed.
Lemma lin_dim : mdim Rtrunc (@lin_mask Rnum) = 3.
Proof. destruct (mdim_01 _ lin_01) as [-> _]. change (vlen (@lin_mask Rnum)) with 6. rewrite lin_ons. reflexivity. Qed.
Lemma ones_dim : mdim Rtrunc (ones_n 6) = 6.
Proof. destruct (mdim_01 _ (ones_n_01 6)) as [-> _]. change (vlen (ones_n 6)) with 6. rewrite ons_ones. reflexivity. Qed.
Lemma dim_count m : mask01 m -> Rtrunc (@nsum Rnum (vlen m) (vget m)) = Z.of_nat (mdim Rtrunc m).
Proof. intros H. unfold mdim. destruct (mdim_01 m H) as [_ P]. rewrite Z2Nat.id; [reflexivity|exact P]. Qed.

Section S.
Variable log3 : rmat -> rvec.
Hypothesis L9 : reads9 log3.
Variables (name : string) (nv : nat).
Notation xstep := (@se3_step Rnum Rtrunc log3).

(** * The task holds what was asked *)
Record agrees (six : bool) (w : wish) (s : se3t Rnum) : Prop := mkAgrees {
  ag_made : @se3_made Rnum Rtrunc log3 name nv s;
  ag_mask : x_mask s = if six then ones_n 6 else lin_mask;
  ag_kp : forall i, i < (if six then 6 else 3) -> vget (x_kp s) i = u_kp w i;
  ag_kd : forall i, i < (if six then 6 else 3) -> vget (x_kd s) i = u_kd w i;
  ag_ref : @aims Rnum s (u_R w) (u_p w) (fun _ => 0%R) (fun _ => 0%R);
  ag_loc : x_local s = if six then true else u_local w }.

Lemma made_go s o s' : @se3_made Rnum Rtrunc log3 name nv s -> xstep s o = Ret s' tt -> @se3_made Rnum Rtrunc log3 name nv s'.
Proof. apply se3_go. Qed.
Lemma can_compute six w s d : agrees six w s -> exists s', xstep s (XCompute d) = Ret s' tt.
Proof.
  intros A. apply (se3_defined Rtrunc log3 name nv s d (ag_made _ _ _ A)). rewrite (ag_mask _ _ _ A). destruct six.
  - rewrite ones_dim, ons_ones. split; [cbn; lia|rewrite seq_length; lia].
  - rewrite lin_dim, lin_ons. split; [cbn; lia|cbn; lia].
Qed.
Lemma aims_conf (s s' : se3t Rnum) (Q : rmat) (p z : rvec) : se3_refs s' = se3_refs s -> @aims Rnum s Q p z z -> @aims Rnum s' Q p z z.
Proof. unfold se3_refs, aims. intros E. injection E as -> -> -> -> _ _ _. auto. Qed.
Lemma agrees_step (six : bool) w s o : agrees six w s ->
  exists s', after ((if six then six_step Rtrunc log3 else point_step Rtrunc log3) s o) = Some s' /\ agrees six (tell six w o) s'.
Proof.
  intros A. pose proof A as [M Hm Hp Hd Hr Hl]. destruct (se3_setters Rtrunc log3 s) as (S1 & S2 & S3 & S4 & _ & S6).
  destruct (se3_references Rtrunc log3 s) as (_ & S7).
  assert (KP : forall k, vlen k = 6 -> exists s', xstep s (XKp k) = Ret s' tt /\ forall w',
     (forall i, i < (if six then 6 else 3) -> vget k i = u_kp w' i) -> u_kd w' = u_kd w -> u_R w' = u_R w -> u_p w' = u_p w -> u_local w' = u_local w -> agrees six w' s').
  { intros k Lk. destruct (S1 k Lk) as (s' & E & C & R & _). exists s'. split; [exact E|]. intros w' K1 K2 K3 K4 K5. unfold se3_conf in C. injection C as C1 C2 C3 C4.
    split; [eapply made_go; eassumption|congruence|rewrite C1; exact K1|rewrite C2, K2; exact Hd| |rewrite C3, K5; exact Hl].
    rewrite K3, K4. eapply aims_conf; eassumption. }
  assert (KD : forall k, vlen k = 6 -> exists s', xstep s (XKd k) = Ret s' tt /\ forall w',
     (forall i, i < (if six then 6 else 3) -> vget k i = u_kd w' i) -> u_kp w' = u_kp w -> u_R w' = u_R w -> u_p w' = u_p w -> u_local w' = u_local w -> agrees six w' s').
  { intros k Lk. destruct (S2 k Lk) as (s' & E & C & R & _). exists s'. split; [exact E|]. intros w' K1 K2 K3 K4 K5. unfold se3_conf in C. injection C as C1 C2 C3 C4.
    split; [eapply made_go; eassumption|congruence|rewrite C1, K2; exact Hp|rewrite C2; exact K1| |rewrite C3, K5; exact Hl].
    rewrite K3, K4. eapply aims_conf; eassumption. }
  assert (RF : forall Q p, exists s', xstep s (XRefSE3 Q p) = Ret s' tt /\ agrees six (mkWish (u_kp w) (u_kd w) Q p (u_local w)) s').
  { intros Q p. destruct (S7 Q p) as (s' & E & Ai & _ & C & _). exists s'. split; [exact E|]. unfold se3_conf in C. injection C as C1 C2 C3 C4.
    split; cbn [u_kp u_kd u_R u_p u_local]; [eapply made_go; eassumption|congruence|rewrite C1; exact Hp|rewrite C2; exact Hd|exact Ai|congruence]. }
  assert (CO : forall d, exists s', xstep s (XCompute d) = Ret s' tt /\ agrees six w s').
  { intros d. destruct (can_compute six w s d A) as [s' E]. exists s'. split; [exact E|]. destruct (S6 d s' E) as [C R]. unfold se3_conf in C. injection C as C1 C2 C3 C4.
    split; [eapply made_go; eassumption|congruence|rewrite C1; exact Hp|rewrite C2; exact Hd|eapply aims_conf; eassumption|congruence]. }
  destruct six; destruct o as [jk v|jk v|Q p|b|d]; cbn [six_step point_step tell].
  - destruct (Nat.eqb_spec (vlen v) 6) as [Lv|Lv].
    + destruct (KP v Lv) as (s' & E & G). rewrite E. exists s'. split; [reflexivity|]. apply G; reflexivity.
    + destruct (S4 v Lv) as [E _]. rewrite E. exists s. split; [reflexivity|exact A].
  - destruct (Nat.eqb_spec (vlen v) 6) as [Lv|Lv].
    + destruct (KD v Lv) as (s' & E & G). rewrite E. exists s'. split; [reflexivity|]. apply G; reflexivity.
    + destruct (S4 v Lv) as [_ E]. rewrite E. exists s. split; [reflexivity|exact A].
  - destruct (RF Q p) as (s' & E & G). rewrite E. exists s'. split; [reflexivity|exact G].
  - exists s. split; [reflexivity|exact A].
  - destruct (CO d) as (s' & E & G). rewrite E. exists s'. split; [reflexivity|exact G].
  - destruct (Nat.eqb_spec (vlen v) 3) as [Lv|Lv].
    + destruct (KP (pad3 jk v) eq_refl) as (s' & E & G). rewrite E. exists s'. split; [reflexivity|]. apply G; try reflexivity.
      intros i Hi. unfold pad3. cbn [vget u_kp]. apply Nat.ltb_lt in Hi. rewrite Hi. reflexivity.
    + exists s. split; [reflexivity|exact A].
  - destruct (Nat.eqb_spec (vlen v) 3) as [Lv|Lv].
    + destruct (KD (pad3 jk v) eq_refl) as (s' & E & G). rewrite E. exists s'. split; [reflexivity|]. apply G; try reflexivity.
      intros i Hi. unfold pad3. cbn [vget u_kd]. apply Nat.ltb_lt in Hi. rewrite Hi. reflexivity.
    + exists s. split; [reflexivity|exact A].
  - destruct (RF Q p) as (s' & E & G). rewrite E. exists s'. split; [reflexivity|exact G].
  - destruct (S3 b) as (s' & E & C & R & _). rewrite E. exists s'. split; [reflexivity|]. unfold se3_conf in C. injection C as C1 C2 C3 C4.
    split; cbn [u_kp u_kd u_R u_p u_local]; [eapply made_go; eassumption|congruence|rewrite C1; exact Hp|rewrite C2; exact Hd|eapply aims_conf; eassumption|congruence].
  - destruct (CO d) as (s' & E & G). rewrite E. exists s'. split; [reflexivity|exact G].
Qed.
Lemma agrees_run (six : bool) l : forall w s, agrees six w s ->
  exists s', run (if six then six_step Rtrunc log3 else point_step Rtrunc log3) s l = Some s' /\ agrees six (fold_left (tell six) l w) s'.
Proof.
  induction l as [|o l IH]; intros w s A; [exists s; split; [reflexivity|exact A]|].
  destruct (agrees_step six w s o A) as (s1 & E & A1). destruct (IH _ _ A1) as (s' & E' & A'). exists s'. split; [|exact A'].
  cbn [run]. rewrite E. exact E'.
Qed.
Lemma agrees_six jk : exists s0, six_new Rtrunc jk name nv = Some s0 /\ agrees true no_wish s0.
Proof.
  destruct (se3_safe log3 jk name nv) as (s0 & E & _). exists s0. split; [exact E|].
  destruct (se3_initial Rtrunc jk name nv s0 E) as (C & Ai & _). unfold se3_conf in C. injection C as C1 C2 C3 C4.
  split; [exists jk, s0; split; [exact E|constructor]|exact C4|rewrite C1; reflexivity|rewrite C2; reflexivity|exact Ai|exact C3].
Qed.
Lemma agrees_point jk jk' : exists s0, point_new Rtrunc log3 jk jk' name nv = Some s0 /\ agrees false no_wish s0.
Proof.
  destruct (agrees_six jk) as (s0 & E & A). unfold six_new in E. unfold point_new. rewrite E. cbn [obind]. destruct A as [M Hm Hp Hd Hr Hl].
  destruct (se3_setters Rtrunc log3 s0) as (_ & _ & _ & _ & S5 & _).
  assert (X : exists s1, xstep s0 (XMask jk' lin_mask) = Ret s1 tt).
  { cbn [se3_step]. destruct (proj1 (mask_def Rtrunc jk' (x_nv s0) (@lin_mask Rnum) (x_h s0) (hi_kind _ _ _ _ _ (xi_h _ _ _ (se3_inv _ _ _ _ _ M))))) as [h Eh].
    - apply (mdim_01 _ lin_01).
    - rewrite Eh. eexists; reflexivity. }
  destruct X as [s1 E1]. exists s1. rewrite E1. split; [reflexivity|]. destruct (S5 _ _ _ E1) as [C R]. unfold se3_conf in C. injection C as C1 C2 C3 C4.
  split; [eapply made_go; eassumption|exact C4|intros i Hi; rewrite C1; apply Hp; lia|intros i Hi; rewrite C2; apply Hd; lia|eapply aims_conf; eassumption|rewrite C3; exact Hl].
Qed.

(** * What compute imposes *)
Lemma rot_ext (Q : rmat) (x y : rvec) i : (forall k, k < 3 -> x k = y k) -> rot Q x i = rot Q y i.
Proof. intros H. unfold rot. rewrite !H by lia. reflexivity. Qed.
Lemma rot_zero (Q : rmat) (x : rvec) i : (forall k, k < 3 -> x k = 0%R) -> rot Q x i = 0%R.
Proof. intros H. unfold rot. rewrite !H by lia. lra. Qed.
Lemma rows_of six w s d s' : agrees six w s -> xstep s (XCompute d) = Ret s' tt ->
  c_kind (h_c (x_h s')) = CEq /\ mrows (c_mat (h_c (x_h s'))) = (if six then 6 else 3) /\ mcols (c_mat (h_c (x_h s'))) = nv /\ vlen (c_vec (h_c (x_h s'))) = (if six then 6 else 3).
Proof.
  intros A E. destruct (se3_done Rtrunc log3 name nv s d s' (ag_made _ _ _ A) E) as (_ & _ & _ & _ & _ & _ & _ & _ & I & _).
  destruct I as [I1 I2 I3 I4 _ _ _ _ _]. rewrite (ag_mask _ _ _ A) in *. rewrite I1, I2, I3, I4. destruct six; [rewrite ones_dim|rewrite lin_dim]; auto.
Qed.
Lemma point_law w (s : se3t Rnum) (d : fdata Rnum) s' : agrees false w s -> (u_local w = false -> orthogonal (d_R d)) -> xstep s (XCompute d) = Ret s' tt ->
  forall y, sat (h_c (x_h s')) y <-> holds_point w d (accel nv (d_J d) (d_a d) y).
Proof.
  intros A O E y. destruct A as [M Hm Hp Hd (R1 & R2 & R3 & R4) Hl]. unfold holds_point. destruct (u_local w).
  - rewrite (se3_meaning_local log3 L9 name nv s d s' M Hl E y). rewrite Hm. unfold local_lin, local_ang. split.
    + intros [H _] i Hi. rewrite (H i Hi (proj2 (lin_on i ltac:(lia)) Hi)), Hp, Hd by exact Hi.
      rewrite (rot_zero _ (x_vd s)), (rot_zero _ (x_ad s)) by (intros; first [apply R3|apply R4]; lia).
      rewrite (rot_ext _ (vminus (x_pd s) (d_p d)) (vminus (u_p w) (d_p d))) by (intros k Hk; unfold vminus; rewrite R1 by exact Hk; reflexivity). lra.
    + intros H. split.
      * intros i Hi _. rewrite (H i Hi), Hp, Hd by exact Hi.
        rewrite (rot_zero _ (x_vd s)), (rot_zero _ (x_ad s)) by (intros; first [apply R3|apply R4]; lia).
        rewrite (rot_ext _ (vminus (x_pd s) (d_p d)) (vminus (u_p w) (d_p d))) by (intros k Hk; unfold vminus; rewrite R1 by exact Hk; reflexivity). lra.
      * intros i Hi N. apply lin_on in N; lia.
  - rewrite (se3_meaning_world log3 L9 name nv s d s' M Hl (O eq_refl) E y). rewrite Hm. unfold world_lin, world_ang. split.
    + intros [H _] i Hi. rewrite (H i Hi (proj2 (lin_on i ltac:(lia)) Hi)), Hp, Hd, R1, R3, R4 by lia. lra.
    + intros H. split; [intros i Hi _; rewrite (H i Hi), Hp, Hd, R1, R3, R4 by lia; lra|intros i Hi N; apply lin_on in N; lia].
Qed.
Lemma frame_law w (s : se3t Rnum) (d : fdata Rnum) s' : agrees true w s -> xstep s (XCompute d) = Ret s' tt ->
  forall y, sat (h_c (x_h s')) y <-> holds_frame log3 w d (accel nv (d_J d) (d_a d) y).
Proof.
  intros A E y. destruct A as [M Hm Hp Hd (R1 & R2 & R3 & R4) Hl]. unfold holds_frame.
  rewrite (se3_meaning_local log3 L9 name nv s d s' M Hl E y). rewrite Hm. unfold local_lin, local_ang.
  assert (RE : forall i, i < 3 -> rot_error log3 (d_R d) (x_Rd s) i = rot_error log3 (d_R d) (u_R w) i).
  { intros i Hi. unfold rot_error. apply L9; [|exact Hi]. intros a b Ha Hb. apply rot_ext. intros k Hk. apply R2; assumption. }
  assert (X1 : forall i, i < 3 -> rot (tr (d_R d)) (vminus (x_pd s) (d_p d)) i = rot (tr (d_R d)) (vminus (u_p w) (d_p d)) i).
  { intros i Hi. apply rot_ext. intros k Hk. unfold vminus. rewrite R1 by exact Hk. reflexivity. }
  split.
  - intros [H G]. split; intros i Hi.
    + rewrite (H i Hi eq_refl), Hp, Hd, X1 by lia. rewrite (rot_zero _ (x_vd s)), (rot_zero _ (x_ad s)) by (intros; first [apply R3|apply R4]; lia). lra.
    + rewrite (G i Hi eq_refl), Hp, Hd, RE by lia. rewrite (rot_zero _ (ang (x_vd s))), (rot_zero _ (ang (x_ad s))) by (intros; unfold ang; first [apply R3|apply R4]; lia). unfold ang. lra.
  - intros [H G]. split; intros i Hi _.
    + rewrite (H i Hi), Hp, Hd, X1 by lia. rewrite (rot_zero _ (x_vd s)), (rot_zero _ (x_ad s)) by (intros; first [apply R3|apply R4]; lia). lra.
    + rewrite (G i Hi), Hp, Hd, RE by lia. rewrite (rot_zero _ (ang (x_vd s))), (rot_zero _ (ang (x_ad s))) by (intros; unfold ang; first [apply R3|apply R4]; lia). unfold ang. lra.
Qed.

(** * Contacts after any calls *)
Theorem point_history jk jk' l : exists s0 s, point_new Rtrunc log3 jk jk' name nv = Some s0 /\ run (point_step Rtrunc log3) s0 l = Some s /\
  n_motion Rtrunc false (x_mask s) = 3%Z /\
  (exists kp kd, head3 (x_kp s) = Some kp /\ head3 (x_kd s) = Some kd /\ forall i, i < 3 -> vget kp i = u_kp (told false l) i /\ vget kd i = u_kd (told false l) i) /\
  forall d : fdata Rnum, exists s', point_step Rtrunc log3 s (MCompute d) = Ret s' tt /\
    mrows (c_mat (h_c (x_h s'))) = 3 /\ mcols (c_mat (h_c (x_h s'))) = nv /\
    ((u_local (told false l) = false -> orthogonal (d_R d)) ->
     forall y, sat (h_c (x_h s')) y <-> holds_point (told false l) d (accel nv (d_J d) (d_a d) y)).
Proof.
  destruct (agrees_point jk jk') as (s0 & E0 & A0). destruct (agrees_run false l no_wish s0 A0) as (s & E & A). exists s0, s.
  split; [exact E0|]. split; [exact E|]. fold (told false l) in A. split.
  { cbn [n_motion]. rewrite (ag_mask _ _ _ A). rewrite (dim_count _ lin_01), lin_dim. reflexivity. }
  split.
  { pose proof (se3_inv _ _ _ _ _ (ag_made _ _ _ A)) as [_ L1 L2 _]. unfold head3. rewrite L1, L2. cbn [Nat.leb]. do 2 eexists. split; [reflexivity|]. split; [reflexivity|].
    intros i Hi. split; [apply (ag_kp _ _ _ A)|apply (ag_kd _ _ _ A)]; exact Hi. }
  intros d. destruct (can_compute false _ s d A) as [s' E']. exists s'. split; [exact E'|]. destruct (rows_of false _ s d s' A E') as (_ & R & C & _).
  split; [exact R|]. split; [exact C|]. intros O. apply (point_law _ s); assumption.
Qed.
Theorem six_history jk l : exists s0 s, six_new Rtrunc jk name nv = Some s0 /\ run (six_step Rtrunc log3) s0 l = Some s /\
  n_motion Rtrunc true (x_mask s) = 6%Z /\
  (vlen (x_kp s) = 6 /\ vlen (x_kd s) = 6 /\ forall i, i < 6 -> vget (x_kp s) i = u_kp (told true l) i /\ vget (x_kd s) i = u_kd (told true l) i) /\
  forall d : fdata Rnum, exists s', six_step Rtrunc log3 s (MCompute d) = Ret s' tt /\
    mrows (c_mat (h_c (x_h s'))) = 6 /\ mcols (c_mat (h_c (x_h s'))) = nv /\
    forall y, sat (h_c (x_h s')) y <-> holds_frame log3 (told true l) d (accel nv (d_J d) (d_a d) y).
Proof.
  destruct (agrees_six jk) as (s0 & E0 & A0). destruct (agrees_run true l no_wish s0 A0) as (s & E & A). exists s0, s.
  split; [exact E0|]. split; [exact E|]. fold (told true l) in A. split; [reflexivity|]. split.
  { pose proof (se3_inv _ _ _ _ _ (ag_made _ _ _ A)) as [_ L1 L2 _]. split; [exact L1|]. split; [exact L2|].
    intros i Hi. split; [apply (ag_kp _ _ _ A)|apply (ag_kd _ _ _ A)]; exact Hi. }
  intros d. destruct (can_compute true _ s d A) as [s' E']. exists s'. split; [exact E'|]. destruct (rows_of true _ s d s' A E') as (_ & R & C & _).
  split; [exact R|]. split; [exact C|]. apply (frame_law _ s); assumption.
Qed.
End S.

(** * ContactTwoFramePositions *)
(** Gains asked for. *)
Definition tell2 (w : rvec * rvec) (o : twop Rnum) : rvec * rvec :=
  match o with WKp _ v => (vget v, snd w) | WKd _ v => (fst w, vget v) | WCompute _ _ => w end.
Definition told2 (l : list (twop Rnum)) : rvec * rvec := fold_left tell2 l (fun _ => 0%R, fun _ => 0%R).
Definition three_gains (o : twop Rnum) : Prop := match o with WKp _ v | WKd _ v => vlen v = 3 | WCompute _ _ => True end.
(** The origins of the two frames are drawn together; world axes. *)
Definition holds_together (w : rvec * rvec) (d1 d2 : fdata Rnum) (a1 a2 : rvec) : Prop :=
  forall i, i < 3 -> (rot (d_R d1) a1 i - rot (d_R d2) a2 i =
    fst w i * (d_p d2 i - d_p d1 i) + snd w i * (rot (d_R d2) (d_v d2) i - rot (d_R d1) (d_v d1) i))%R.

Section Two.
Variable log3 : rmat -> rvec.
Hypothesis L9 : reads9 log3.
Variables (name : string) (nv : nat).
Notation ystep := (@tf_step Rnum Rtrunc log3).
Record agrees2 (w : rvec * rvec) (s : tft Rnum) : Prop := mkAgrees2 {
  a2_made : @tf_made Rnum Rtrunc log3 name nv s;
  a2_mask : y_mask s = lin_mask;
  a2_kp : forall i, i < 3 -> vget (y_kp s) i = fst w i;
  a2_kd : forall i, i < 3 -> vget (y_kd s) i = snd w i }.
Lemma made2_go s o s' : @tf_made Rnum Rtrunc log3 name nv s -> ystep s o = Ret s' tt -> @tf_made Rnum Rtrunc log3 name nv s'.
Proof. intros (jk & s0 & E & R) H. exists jk, s0. split; [exact E|]. econstructor; [exact R|exact I|]. rewrite H. reflexivity. Qed.
Lemma can_compute2 w s d1 d2 : agrees2 w s -> exists s', ystep s (YCompute d1 d2) = Ret s' tt.
Proof.
  intros A. apply (tf_defined Rtrunc log3 name nv s d1 d2 (a2_made _ _ A)). rewrite (a2_mask _ _ A), lin_dim, lin_ons. split; cbn; lia.
Qed.
Lemma agrees2_step w s o : agrees2 w s -> three_gains o ->
  exists s', two_step Rtrunc log3 s o = Ret s' tt /\ agrees2 (tell2 w o) s'.
Proof.
  intros A G. pose proof A as [M Hm Hp Hd]. destruct (tf_setters Rtrunc log3 s) as (S1 & S2 & _ & S4).
  destruct o as [jk v|jk v|d1 d2]; cbn [two_step three_gains tell2] in *.
  - rewrite G. cbn [Nat.eqb]. destruct (S1 (pad3 jk v) eq_refl) as (s' & E & C & _). rewrite E. exists s'. split; [reflexivity|]. unfold tf_conf in C. injection C as C1 C2 C3.
    split; [eapply made2_go; eassumption|congruence| |rewrite C2; exact Hd].
    intros i Hi. rewrite C1. unfold pad3. cbn [vget fst]. apply Nat.ltb_lt in Hi. rewrite Hi. reflexivity.
  - rewrite G. cbn [Nat.eqb]. destruct (S2 (pad3 jk v) eq_refl) as (s' & E & C & _). rewrite E. exists s'. split; [reflexivity|]. unfold tf_conf in C. injection C as C1 C2 C3.
    split; [eapply made2_go; eassumption|congruence|rewrite C1; exact Hp|].
    intros i Hi. rewrite C2. unfold pad3. cbn [vget snd]. apply Nat.ltb_lt in Hi. rewrite Hi. reflexivity.
  - destruct (can_compute2 w s d1 d2 A) as [s' E]. rewrite E. exists s'. split; [reflexivity|]. pose proof (S4 d1 d2 s' E) as C. unfold tf_conf in C. injection C as C1 C2 C3.
    split; [eapply made2_go; eassumption|congruence|rewrite C1; exact Hp|rewrite C2; exact Hd].
Qed.
Lemma agrees2_run l : Forall three_gains l -> forall w s, agrees2 w s ->
  exists s', run (two_step Rtrunc log3) s l = Some s' /\ agrees2 (fold_left tell2 l w) s'.
Proof.
  induction 1 as [|o l G _ IH]; intros w s A; [exists s; split; [reflexivity|exact A]|].
  destruct (agrees2_step w s o A G) as (s1 & E & A1). destruct (IH _ _ A1) as (s' & E' & A'). exists s'. split; [|exact A'].
  cbn [run]. rewrite E. exact E'.
Qed.
Lemma agrees2_new jk jk' : exists s0, two_new Rtrunc log3 jk jk' name nv = Some s0 /\ agrees2 (fun _ => 0%R, fun _ => 0%R) s0.
Proof.
  destruct (tf_safe log3 jk name nv) as (s0 & E & _). unfold two_new. rewrite E. cbn [obind].
  pose proof (tf_initial Rtrunc jk name nv s0 E) as C. unfold tf_conf in C. injection C as C1 C2 C3.
  assert (M : @tf_made Rnum Rtrunc log3 name nv s0) by (exists jk, s0; split; [exact E|constructor]).
  assert (X : exists s1, ystep s0 (YMask jk' lin_mask) = Ret s1 tt).
  { cbn [tf_step]. destruct (proj1 (mask_def Rtrunc jk' (y_nv s0) (@lin_mask Rnum) (y_h s0) (hi_kind _ _ _ _ _ (yi_h _ _ _ (tf_inv _ _ _ _ _ M))))) as [h Eh].
    - apply (mdim_01 _ lin_01).
    - rewrite Eh. eexists; reflexivity. }
  destruct X as [s1 E1]. exists s1. rewrite E1. split; [reflexivity|].
  destruct (tf_setters Rtrunc log3 s0) as (_ & _ & S3 & _). pose proof (S3 _ _ _ E1) as D. unfold tf_conf in D. injection D as D1 D2 D3.
  split; [eapply made2_go; eassumption|exact D3|rewrite D1, C1; reflexivity|rewrite D2, C2; reflexivity].
Qed.
Theorem two_history jk jk' l : Forall three_gains l ->
  exists s0 s, two_new Rtrunc log3 jk jk' name nv = Some s0 /\ run (two_step Rtrunc log3) s0 l = Some s /\
  n_motion Rtrunc false (y_mask s) = 3%Z /\
  (exists kp kd, head3 (y_kp s) = Some kp /\ head3 (y_kd s) = Some kd /\ forall i, i < 3 -> vget kp i = fst (told2 l) i /\ vget kd i = snd (told2 l) i) /\
  forall d1 d2 : fdata Rnum, exists s', two_step Rtrunc log3 s (WCompute d1 d2) = Ret s' tt /\
    mrows (c_mat (h_c (y_h s'))) = 3 /\ mcols (c_mat (h_c (y_h s'))) = nv /\
    (orthogonal (d_R d1) -> forall y, sat (h_c (y_h s')) y <->
       holds_together (told2 l) d1 d2 (accel nv (d_J d1) (d_a d1) y) (accel nv (d_J d2) (d_a d2) y)).
Proof.
  intros G. destruct (agrees2_new jk jk') as (s0 & E0 & A0). destruct (agrees2_run l G _ s0 A0) as (s & E & A). exists s0, s.
  split; [exact E0|]. split; [exact E|]. fold (told2 l) in A. split.
  { cbn [n_motion]. rewrite (a2_mask _ _ A). rewrite (dim_count _ lin_01), lin_dim. reflexivity. }
  split.
  { pose proof (tf_inv _ _ _ _ _ (a2_made _ _ A)) as [_ L1 L2 _]. unfold head3. rewrite L1, L2. cbn [Nat.leb]. do 2 eexists. split; [reflexivity|]. split; [reflexivity|].
    intros i Hi. split; [apply (a2_kp _ _ A)|apply (a2_kd _ _ A)]; exact Hi. }
  intros d1 d2. destruct (can_compute2 _ s d1 d2 A) as [s' E']. exists s'. split; [exact E'|]. destruct A as [M Hm Hp Hd].
  destruct (tf_done Rtrunc log3 name nv s d1 d2 s' M E') as (_ & _ & _ & I & _). destruct I as [I1 I2 I3 I4 _ _ _ _ _]. rewrite Hm in *. rewrite lin_dim in *.
  split; [exact I2|]. split; [exact I3|]. intros O y. rewrite (tf_meaning log3 L9 name nv s d1 d2 s' M O E' y). rewrite Hm. unfold holds_together. split.
  - intros [H _] i Hi. rewrite <- Hp, <- Hd by exact Hi. apply H; [exact Hi|apply lin_on; lia].
  - intros H. split; [intros i Hi _; rewrite Hp, Hd by exact Hi; apply H; exact Hi|intros i Hi N; apply lin_on in N; lia].
Qed.
Theorem two_wrong_size s jk (v : vec Rnum) : vlen v <> 3 -> two_step Rtrunc log3 s (WKp jk v) = Undef /\ two_step Rtrunc log3 s (WKd jk v) = Undef.
Proof. intros H. apply Nat.eqb_neq in H. cbn [two_step]. rewrite H. auto. Qed.
End Two.
