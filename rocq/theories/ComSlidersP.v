(** Proofs of C115. *)
From Coq Require Import String List Arith Bool Reals Lia Lra.
From Verif Require Import Scalar Outcome Linalg Constraint FormPhysSpec RSum Masks MaskReal FrameTasks FrameTasksP FrameTasksR FrameRefute ClosedLoopR SampledTrack ComProgram ComProgramP ComSliders.
Import ListNotations.
Open Scope string_scope.
Open Scope list_scope.
Open Scope nat_scope.

(** The reference in force in period [i]: where the last slider event up to it put it. *)
Inductive in_force (com_0 com_ref : nat -> R) (l : list period) : nat -> (nat -> R) -> Prop :=
| never i : (forall j e, j <= i -> nth_error l j = Some e -> e_slide e = None) -> in_force com_0 com_ref l i com_ref
| moved i j e x : j <= i -> nth_error l j = Some e -> e_slide e = Some x ->
    (forall j' e', j < j' <= i -> nth_error l j' = Some e' -> e_slide e' = None) ->
    in_force com_0 com_ref l i (fun k => (com_0 k + 1 / 100 * x k)%R).
Definition asks (kp : R) (r : nat -> R) (e : period) (k : nat) : R := (- kp * (g_p (e_d e) k - r k) - 2 * sqrt kp * g_v (e_d e) k)%R.
Definition moves (nv : nat) (e : period) (k : nat) : R := accel nv (g_J (e_d e)) (g_a (e_d e)) (vget (e_dv e)) k.
Definition out_ok (nv : nat) (kp : R) (r : nat -> R) (e : period) (o : constr Rnum * (nat -> R)) : Prop :=
  (forall k, k < 3 -> snd o k = asks kp r e k) /\ (sat (fst o) (vget (e_dv e)) <-> forall k, k < 3 -> moves nv e k = asks kp r e k).

Section P.
Variables (nv : nat) (jk : vec Rnum) (kp : R) (com_0 : nat -> R).
Lemma compute_ok s d : ready nv kp s -> vlen (z_val s) = 3 -> vlen (z_der s) = 3 -> vlen (z_sec s) = 3 ->
  exists s', @com_step Rnum Rtrunc s (ZCompute d) = Ret s' tt /\ ready nv kp s' /\ z_val s' = z_val s /\ z_der s' = z_der s /\ z_sec s' = z_sec s /\
  (forall k, k < 3 -> vget (h_ad (z_h s')) k = (vget (z_sec s) k - kp * (g_p d k - vget (z_val s) k) - 2 * sqrt kp * (g_v d k - vget (z_der s) k))%R) /\
  forall y, sat (h_c (z_h s')) y <-> forall k, k < 3 -> accel nv (g_J d) (g_a d) y k = (vget (z_sec s) k - kp * (g_p d k - vget (z_val s) k) - 2 * sqrt kp * (g_v d k - vget (z_der s) k))%R.
Proof.
  intros [M Em Ekp Ekd] L1 L2 L3.
  destruct (proj2 (com_defined Rtrunc "task-com" nv s d M)) as [s2 E2].
  { rewrite Em, L1, L2, L3. do 3 (split; [reflexivity|]). destruct (mdim_01 _ (ones_n_01 3)) as [-> _]. cbn [vlen ones_n]. lia. }
  exists s2. split; [exact E2|]. destruct (com_done _ _ _ _ _ _ M E2) as (D1 & D2 & D3 & D4 & D5 & D6 & D).
  split; [split; [eapply made_step; eassumption|rewrite D1; exact Em|intros k; rewrite D2; apply Ekp|intros k; rewrite D3; apply Ekd]|].
  split; [assumption|]. split; [assumption|]. split; [assumption|]. split.
  - intros k Hk. assert (Hn : nth_error (ons 3 (z_mask s)) k = Some k).
    { rewrite Em, ons_ones. destruct k as [|[|[|k]]]; [reflexivity|reflexivity|reflexivity|lia]. }
    destruct D as (_ & _ & _ & D). destruct (D k k Hn) as (_ & _ & -> & _). unfold com_ades, com_pe, com_ve. rewrite Ekp, Ekd. cbn. ring.
  - intros y. rewrite (com_meaning _ _ _ _ _ M E2 y). split; intros H k Hk.
    + rewrite (H k Hk) by (rewrite Em; reflexivity). rewrite Ekp, Ekd. ring.
    + intros _. rewrite (H k Hk), Ekp, Ekd. ring.
Qed.
Lemma gui_turn_ok r s e : ready nv kp s -> exists s' o, gui_turn r s e = Some (s', o) /\ ready nv kp s' /\ out_ok nv kp r e o.
Proof.
  intros H. unfold gui_turn.
  set (s1 := @mkComt Rnum (z_nv s) (z_kp s) (z_kd s) (vec3r r) (@vzero Rnum 3) (@vzero Rnum 3) (z_mask s) (z_h s)).
  change (@com_step Rnum Rtrunc s (ZRef (vec3r r) (@vzero Rnum 3) (@vzero Rnum 3))) with (Ret s1 tt). cbn [go obind].
  assert (H1 : ready nv kp s1).
  { destruct H as [M Em Ekp Ekd]. split; [exact (made_step nv s (ZRef (vec3r r) (@vzero Rnum 3) (@vzero Rnum 3)) s1 M eq_refl)|exact Em|exact Ekp|exact Ekd]. }
  destruct (compute_ok s1 (e_d e) H1 eq_refl eq_refl eq_refl) as (s2 & E2 & H2 & V1 & V2 & V3 & A & C). rewrite E2. cbn [go obind].
  assert (O : out_ok nv kp r e (h_c (z_h s2), vget (h_ad (z_h s2)))).
  { assert (Z : forall k, (vget (z_sec s1) k - kp * (g_p (e_d e) k - vget (z_val s1) k) - 2 * sqrt kp * (g_v (e_d e) k - vget (z_der s1) k))%R = asks kp r e k).
    { intros k. unfold asks. cbn [s1 z_sec z_val z_der vec3r vget vzero]. cbn. ring. }
    split; cbn [fst snd].
    - intros k Hk. rewrite (A k Hk). apply Z.
    - rewrite (C (vget (e_dv e))). split; intros X k Hk; [rewrite <- Z|rewrite Z]; apply X; exact Hk. }
  destruct (e_push e) as [d|].
  - destruct (compute_ok s2 d H2) as (s3 & E3 & H3 & _); [rewrite V1; reflexivity|rewrite V2; reflexivity|rewrite V3; reflexivity|].
    rewrite E3. cbn [go obind]. eauto.
  - eauto.
Qed.
(** The reference after the first i + 1 events. *)
Fixpoint ref_at (r : nat -> R) (l : list period) (i : nat) : nat -> R :=
  match l with [] => r | e :: l => let r := slide com_0 r (e_slide e) in match i with O => r | S i => ref_at r l i end end.
Lemma gui_loop_ok l : forall r s, ready nv kp s -> exists s' os, gui_loop com_0 r s l = Some (s', os) /\ List.length os = List.length l /\
  forall i e o, nth_error l i = Some e -> nth_error os i = Some o -> out_ok nv kp (ref_at r l i) e o.
Proof.
  induction l as [|e l IH]; intros r s H; cbn [gui_loop].
  - exists s, []. split; [reflexivity|]. split; [reflexivity|]. intros [|i] e o X; discriminate.
  - destruct (gui_turn_ok (slide com_0 r (e_slide e)) s e H) as (s1 & o1 & E1 & H1 & O1). rewrite E1. cbn [obind].
    destruct (IH (slide com_0 r (e_slide e)) s1 H1) as (s2 & os & E2 & Ln & Q). rewrite E2. cbn [obind]. exists s2, (o1 :: os).
    split; [reflexivity|]. split; [cbn; congruence|]. intros [|i] e' o X Y; cbn [nth_error] in X, Y.
    + injection X as <-. injection Y as <-. exact O1.
    + exact (Q i e' o X Y).
Qed.
Lemma ref_none l : forall r i, (forall j e, j <= i -> nth_error l j = Some e -> e_slide e = None) -> ref_at r l i = r.
Proof.
  induction l as [|e l IH]; intros r i H; [reflexivity|]. cbn [ref_at]. rewrite (H 0 e ltac:(lia) eq_refl). cbn [slide].
  destruct i as [|i]; [reflexivity|]. apply IH. intros j e' Hj X. exact (H (S j) e' ltac:(lia) X).
Qed.
Lemma ref_moved l : forall r i j e x, j <= i -> nth_error l j = Some e -> e_slide e = Some x ->
  (forall j' e', j < j' <= i -> nth_error l j' = Some e' -> e_slide e' = None) -> ref_at r l i = fun k => (com_0 k + 1 / 100 * x k)%R.
Proof.
  induction l as [|a l IH]; intros r i j e x Hj X Y N; [destruct j; discriminate|]. cbn [ref_at]. destruct j as [|j]; cbn [nth_error] in X.
  - injection X as ->. rewrite Y. cbn [slide]. destruct i as [|i]; [reflexivity|]. apply ref_none. intros j' e' Hj' X'. exact (N (S j') e' ltac:(lia) X').
  - destruct i as [|i]; [lia|]. apply (IH _ i j e x); [lia|exact X|exact Y|]. intros j' e' Hj' X'. exact (N (S j') e' ltac:(lia) X').
Qed.
Lemma ref_at_force com_ref l : forall i, in_force com_0 com_ref l i (ref_at com_ref l i).
Proof.
  assert (G : forall (l : list period) i, (forall j e, j <= i -> nth_error l j = Some e -> e_slide e = None) \/
    exists j e x, j <= i /\ nth_error l j = Some e /\ e_slide e = Some x /\ forall j' e', j < j' <= i -> nth_error l j' = Some e' -> e_slide e' = None).
  { clear. intros l. induction i as [|i IH].
    - destruct (nth_error l 0) as [e|] eqn:E; [destruct (e_slide e) as [x|] eqn:X|].
      + right. exists 0, e, x. do 3 (split; [auto|]). intros j' e' Hj. lia.
      + left. intros j e' Hj Y. replace j with 0 in Y by lia. congruence.
      + left. intros j e' Hj Y. replace j with 0 in Y by lia. congruence.
    - destruct (nth_error l (S i)) as [e|] eqn:E; [destruct (e_slide e) as [x|] eqn:X|].
      + right. exists (S i), e, x. do 3 (split; [auto|]). intros j' e' Hj. lia.
      + destruct IH as [IH|(j & e1 & x & H1 & H2 & H3 & H4)]; [left|right].
        * intros j e' Hj Y. destruct (Nat.eq_dec j (S i)) as [->|Ne]; [congruence|apply (IH j e'); [lia|exact Y]].
        * exists j, e1, x. do 3 (split; [auto|]). intros j' e' Hj Y. destruct (Nat.eq_dec j' (S i)) as [->|Ne]; [congruence|apply (H4 j' e'); [lia|exact Y]].
      + destruct IH as [IH|(j & e1 & x & H1 & H2 & H3 & H4)]; [left|right].
        * intros j e' Hj Y. destruct (Nat.eq_dec j (S i)) as [->|Ne]; [congruence|apply (IH j e'); [lia|exact Y]].
        * exists j, e1, x. do 3 (split; [auto|]). intros j' e' Hj Y. destruct (Nat.eq_dec j' (S i)) as [->|Ne]; [congruence|apply (H4 j' e'); [lia|exact Y]]. }
  intros i. destruct (G l i) as [N|(j & e & x & H1 & H2 & H3 & H4)].
  - rewrite (ref_none _ _ _ N). apply never. exact N.
  - rewrite (ref_moved _ com_ref i j e x H1 H2 H3 H4). eapply moved; eassumption.
Qed.
Lemma ref_in_force com_ref l i r : in_force com_0 com_ref l i r -> ref_at com_ref l i = r.
Proof. intros [i' H|i' j e x H1 H2 H3 H4]; [apply ref_none; exact H|eapply ref_moved; eassumption]. Qed.
Theorem gui_runs com_ref l : exists os, gui_program com_0 nv jk kp com_ref l = Some os /\ List.length os = List.length l /\
  forall i e o r, nth_error l i = Some e -> nth_error os i = Some o -> in_force com_0 com_ref l i r -> out_ok nv kp r e o.
Proof.
  unfold gui_program. destruct (build_ready nv jk kp) as (s & E & H). rewrite E. cbn [obind].
  destruct (gui_loop_ok l com_ref s H) as (s' & os & E' & Ln & Q). rewrite E'. cbn [obind]. exists os. split; [reflexivity|]. split; [exact Ln|].
  intros i e o r X Y F. rewrite <- (ref_in_force _ _ _ _ F). exact (Q i e o X Y).
Qed.
(** The reference in force stays in force while no slider moves. *)
Lemma force_stays com_ref l m r i : in_force com_0 com_ref l m r -> m <= i ->
  (forall j e, m < j <= i -> nth_error l j = Some e -> e_slide e = None) -> in_force com_0 com_ref l i r.
Proof.
  intros [m' H|m' j e x H1 H2 H3 H4] Hi N.
  - apply never. intros j e Hj X. destruct (le_lt_dec j m') as [L|L]; [exact (H j e L X)|exact (N j e ltac:(lia) X)].
  - apply moved with j e; [lia|exact H2|exact H3|]. intros j' e' Hj' X. destruct (le_lt_dec j' m') as [L|L]; [exact (H4 j' e' ltac:(lia) X)|exact (N j' e' ltac:(lia) X)].
Qed.
Lemma const_thrice c : thrice (fun _ => c) (fun _ => 0%R) (fun _ => 0%R) 0.
Proof.
  exists (fun _ => 0%R). intros t _. split; [|split; [|split]]; try apply derivable_pt_lim_const. rewrite Rabs_R0. lra.
Qed.
Theorem gui_settles dt com_ref l os m n r k (ev : nat -> period) : (0 < kp)%R -> (0 < dt)%R -> (sqrt kp * dt <= 1 / 2)%R -> k < 3 ->
  gui_program com_0 nv jk kp com_ref l = Some os -> in_force com_0 com_ref l m r ->
  (forall i, m <= i <= m + n -> nth_error l i = Some (ev i)) -> (forall i, m < i <= m + n -> e_slide (ev i) = None) ->
  (forall i o, m <= i < m + n -> nth_error os i = Some o -> sat (fst o) (vget (e_dv (ev i)))) ->
  (forall i, m <= i < m + n ->
    g_p (e_d (ev (S i))) k = (g_p (e_d (ev i)) k + dt * (g_v (e_d (ev i)) k + 1 / 2 * dt * moves nv (ev i) k))%R /\
    g_v (e_d (ev (S i))) k = (g_v (e_d (ev i)) k + dt * moves nv (ev i) k)%R) ->
  let e0 := (g_p (e_d (ev m)) k - r k)%R in let v0 := g_v (e_d (ev m)) k in
  forall i, i <= n -> (Rabs (g_p (e_d (ev (m + i)%nat)) k - r k) <= (1 - sqrt kp * dt / 2) ^ i * Rmax (Rabs e0) (2 * Rabs (e0 + v0 / sqrt kp)))%R.
Proof.
  intros Hk Hdt Hs H3 E F EV NS MET IG e0 v0 i Hi. destruct (gui_runs com_ref l) as (os' & E' & Ln & Q). rewrite E in E'. injection E' as <-.
  pose proof (critical_track_upto kp dt _ _ _ _ (fun j => g_p (e_d (ev (m + j))) k) (fun j => g_v (e_d (ev (m + j))) k) n Hk Hdt Hs (const_thrice (r k))) as X. cbv zeta beta in X.
  assert (Y : forall j, j < n -> moves nv (ev (m + j)) k = asks kp r (ev (m + j)) k).
  { intros j Hj. assert (HE := EV (m + j) ltac:(lia)). destruct (nth_error os (m + j)) as [o|] eqn:EO.
    - assert (F' : in_force com_0 com_ref l (m + j) r).
      { apply (force_stays com_ref l m r); [exact F|lia|]. intros j' e' Hj' X'. rewrite (EV j' ltac:(lia)) in X'. injection X' as <-. apply NS. lia. }
      destruct (Q _ _ _ _ HE EO F') as [_ M]. exact (proj1 M (MET (m + j) o ltac:(clear - Hj; lia) EO) k H3).
    - exfalso. apply nth_error_None in EO. assert (m + j < List.length l) by (apply nth_error_Some; congruence). rewrite Ln in EO. clear - EO H. lia. }
  specialize (X ltac:(intros j Hj; replace (m + S j) with (S (m + j)) by lia; destruct (IG (m + j) ltac:(lia)) as [-> ->]; rewrite (Y j Hj); unfold asks; split; ring) i Hi).
  rewrite Nat.add_0_r, (Rminus_0_r (g_v (e_d (ev m)) k)) in X. fold e0 v0 in X.
  replace (4 / 3 * dt * 0 / kp)%R with 0%R in X by (unfold Rdiv; ring). rewrite Rplus_0_r in X. exact X.
Qed.
End P.
