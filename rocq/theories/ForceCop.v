(** The centre-of-pressure task. *)
From Coq Require Import String List Arith Bool ZArith QArith Reals Lia Lra.
From Verif Require Import Scalar Outcome Linalg Constraint FormSpec FormPhysSpec RSum FrameTasks FrameTasksR FrameTasksP ForceTasks.
Import ListNotations.
Open Scope list_scope.
Open Scope nat_scope.

Section P.
Context {K : num}.
Definition cblock (c : ccon K) : nat * nat := (w_idx c, w_nf c).
(** Three force components per contact point. *)
Definition three_per_point (l : list (ccon K)) : Prop := forall c, In c l -> w_nf c = 3 * mcols (w_pts c).
Lemma point_loop (s : copt K) n c m (A : mat K) : w_idx c + 3 * m <= n ->
  exists A', ofold (cop_point s n c) (seq 0 m) A = Some A' /\ mrows A' = mrows A /\ mcols A' = mcols A /\
    (forall r j k, j < m -> k < 3 -> mget A' r (w_idx c + 3 * j + k) = ((world_pt c j r - q_ref s r) * q_n s k)%num) /\
    (forall r k, k < w_idx c \/ w_idx c + 3 * m <= k -> mget A' r k = mget A r k).
Proof.
  induction m as [|m IH]; intros H.
  - exists A. split; [reflexivity|]. repeat split; auto. intros; lia.
  - destruct IH as (A1 & E & R1 & C1 & I1 & I2); [lia|]. rewrite seq_S, ofold_app, E. cbn [Nat.add ofold]. unfold cop_point.
    replace (w_idx c + 3 * m + 3 <=? n) with true by (symmetry; apply Nat.leb_le; lia). eexists. split; [reflexivity|]. cbn [mrows mcols mget].
    split; [exact R1|]. split; [exact C1|]. split.
    + intros r j k Hj Hk. destruct (Nat.eq_dec j m) as [->|Hne].
      * replace (w_idx c + 3 * m <=? w_idx c + 3 * m + k) with true by (symmetry; apply Nat.leb_le; lia).
        replace (w_idx c + 3 * m + k <? w_idx c + 3 * m + 3) with true by (symmetry; apply Nat.ltb_lt; lia). cbn [andb].
        replace (w_idx c + 3 * m + k - (w_idx c + 3 * m)) with k by lia. reflexivity.
      * replace (w_idx c + 3 * m <=? w_idx c + 3 * j + k) with false by (symmetry; apply Nat.leb_gt; lia). cbn [andb]. apply I1; lia.
    + intros r k Hk. destruct (_ && _) eqn:X; [|apply I2; lia]. apply andb_true_iff in X as [X1 X2]. apply Nat.leb_le in X1. apply Nat.ltb_lt in X2. lia.
Qed.
Definition cols_ok (s : copt K) (l : list (ccon K)) (A : mat K) : Prop :=
  forall c r j k, In c l -> j < mcols (w_pts c) -> k < 3 -> mget A r (w_idx c + 3 * j + k) = ((world_pt c j r - q_ref s r) * q_n s k)%num.
Lemma contact_loop (s : copt K) n l : three_per_point l -> forall a b (A : mat K), tiles a (map cblock l) b -> b <= n ->
  exists A', ofold (fun A c => ofold (cop_point s n c) (seq 0 (mcols (w_pts c))) A) l A = Some A' /\ mrows A' = mrows A /\ mcols A' = mcols A /\
    cols_ok s l A' /\ (forall r k, k < a \/ b <= k -> mget A' r k = mget A r k) /\ a <= b.
Proof.
  intros H3. induction l as [|c l IH]; intros a b A HT Hb; cbn [map tiles] in HT.
  - subst b. exists A. split; [reflexivity|]. repeat split; auto. intros c r j k [].
  - destruct HT as [HI HT]. assert (Hc : w_nf c = 3 * mcols (w_pts c)) by (apply H3; left; reflexivity).
    assert (H3' : three_per_point l) by (intros x Hx; apply H3; right; exact Hx).
    destruct (IH H3' (a + w_nf c) b A HT Hb) as (_ & _ & _ & _ & _ & _ & HL).
    destruct (point_loop s n c (mcols (w_pts c)) A) as (A1 & E1 & R1 & C1 & I1 & I2); [lia|].
    destruct (IH H3' (a + w_nf c) b A1 HT Hb) as (A2 & E2 & R2 & C2 & J1 & J2 & _). exists A2. cbn [ofold]. rewrite E1. split; [exact E2|].
    split; [congruence|]. split; [congruence|]. split; [|split; [|lia]].
    + intros x r j k [<-|Hx] Hj Hk; [|apply J1; auto]. rewrite J2 by lia. apply I1; auto.
    + intros r k Hk. rewrite J2 by lia. apply I2. lia.
Qed.
Definition nforces (l : list (ccon K)) : nat := fold_right (fun c a => w_nf c + a) 0 l.
Lemma tiles_nforces l : forall a b, tiles a (map cblock l) b -> b = a + nforces l.
Proof. induction l as [|c l IH]; intros a b H; cbn [map tiles cblock] in H; [cbn; lia|]. destruct H as [_ H]. apply IH in H. cbn. unfold nforces in H. lia. Qed.
(** compute writes every column. *)
Lemma cop_filled jk (s : copt K) l : three_per_point l -> tiles 0 (map cblock l) (nforces l) ->
  exists s', cop_step s (QCompute jk l) = Ret s' tt /\ q_n s' = q_n s /\ q_ref s' = q_ref s /\ c_kind (q_c s') = c_kind (q_c s) /\ c_vec (q_c s') = c_vec (q_c s) /\
    mrows (c_mat (q_c s')) = 3 /\ mcols (c_mat (q_c s')) = nforces l /\ cols_ok s l (c_mat (q_c s')).
Proof.
  intros H3 HT. destruct (contact_loop s (nforces l) l H3 0 (nforces l) (mkMat 3 (nforces l) (mget jk)) HT (le_n _)) as (A & E & R & C & I & _).
  cbn [cop_step]. unfold cop_compute. fold (nforces l). rewrite E. cbn [obind]. eexists. split; [reflexivity|]. cbn [q_n q_ref q_c cset_mat c_kind c_vec c_mat]. auto 10.
Qed.
Definition cop_made (name : string) (s : copt K) : Prop := reach cop_step (fun _ _ => True) (cop_new name) s.
Lemma cop_inv name s : cop_made name s -> c_kind (q_c s) = CEq /\ c_vec (q_c s) = vzero 3.
Proof.
  unfold cop_made. apply (reach_inv _ _ (fun s => c_kind (q_c s) = CEq /\ c_vec (q_c s) = vzero 3)); [split; reflexivity|]. clear. intros s o s' I _ E. destruct o; cbn [cop_step] in E.
  - cbn in E. injection E as <-. exact I.
  - cbn in E. injection E as <-. exact I.
  - unfold cop_compute in E. destruct (ofold _ _ _); [|discriminate]. cbn [obind after] in E. injection E as <-. exact I.
Qed.
End P.

(** * Over the reals *)
Notation rcon := (ccon Rnum).
Definition dot3 (a b : rvec) : R := (a 0%nat * b 0%nat + a 1%nat * b 1%nat + a 2%nat * b 2%nat)%R.
(** Force variables of point [j] of a contact, and sums over all contact points. *)
Definition fvar (y : rvec) (c : rcon) (j : nat) : rvec := fun k => y (w_idx c + 3 * j + k)%nat.
Definition psum (l : list rcon) (g : rcon -> nat -> R) : R := lsum (fun c => rsum (mcols (w_pts c)) (g c)) l.
(** World position of a contact point. *)
Definition wpoint (c : rcon) (j : nat) : rvec := fun r => (rot (w_R c) (fun k => mget (w_pts c) k j) r + w_p c r)%R.
Lemma wpoint_eq (c : rcon) j r : @world_pt Rnum c j r = wpoint c j r.
Proof. unfold world_pt, wpoint. cbn [Rnum nadd nmul car]. rewrite rsum3. reflexivity. Qed.
Lemma rsum_3m m (g : nat -> R) : rsum (3 * m) g = rsum m (fun j => g (3 * j)%nat + g (3 * j + 1)%nat + g (3 * j + 2)%nat)%R.
Proof.
  induction m as [|m IH]; [reflexivity|]. replace (3 * S m) with (S (S (S (3 * m)))) by lia. rewrite !rsum_S, IH.
  replace (S (3 * m)) with (3 * m + 1) by lia. replace (S (3 * m + 1)) with (3 * m + 2) by lia. lra.
Qed.
Lemma psum_ext l g h : (forall c j, In c l -> j < mcols (w_pts c) -> g c j = h c j) -> psum l g = psum l h.
Proof. intros H. unfold psum. apply lsum_ext. intros c Hc. apply rsum_ext. intros j Hj. apply H; auto. Qed.
Lemma psum_scal l a g : psum l (fun c j => a * g c j)%R = (a * psum l g)%R.
Proof. unfold psum. rewrite <- lsum_scal. apply lsum_ext. intros c _. apply rsum_scal. Qed.
Lemma psum_minus l g h : psum l (fun c j => g c j - h c j)%R = (psum l g - psum l h)%R.
Proof.
  unfold psum. induction l as [|c l IH]; [unfold lsum; cbn; lra|]. rewrite !lsum_cons, IH, rsum_minus. lra.
Qed.
(** The task is the moment balance of the normal components about the reference. *)
Theorem cop_meaning name jk (s : copt Rnum) l : cop_made name s -> three_per_point l -> tiles 0 (map cblock l) (nforces l) ->
  exists s', cop_step s (QCompute jk l) = Ret s' tt /\ forall y,
    (sat (q_c s') y <-> forall r, r < 3 -> psum l (fun c j => (wpoint c j r - q_ref s r) * dot3 (q_n s) (fvar y c j))%R = 0%R).
Proof.
  intros M H3 HT. destruct (cop_inv name s M) as [IK IV]. destruct (cop_filled jk s l H3 HT) as (s' & E & _ & _ & K1 & K2 & R1 & C1 & CO). exists s'. split; [exact E|].
  intros y. unfold sat, lhs. rewrite K1, K2, IK, IV, C1. cbn [vlen vzero vget].
  assert (X : forall r, rsum (nforces l) (fun k => mget (c_mat (q_c s')) r k * y k)%R = psum l (fun c j => (wpoint c j r - q_ref s r) * dot3 (q_n s) (fvar y c j))%R).
  { intros r. rewrite (tiles_rsum (map cblock l) 0 _ _ HT), rsum_0, Rplus_0_l, lsum_map. unfold psum. apply lsum_ext. intros c Hc. cbn [cblock fst snd].
    rewrite (H3 c Hc), rsum_3m. apply rsum_ext. intros j Hj.
    assert (G : forall k, k < 3 -> mget (c_mat (q_c s')) r (w_idx c + 3 * j + k) = ((wpoint c j r - q_ref s r) * q_n s k)%R).
    { intros k Hk. rewrite (CO c r j k Hc Hj Hk), wpoint_eq. reflexivity. }
    assert (G0 := G 0 ltac:(lia)). assert (G1 := G 1 ltac:(lia)). assert (G2 := G 2 ltac:(lia)). unfold dot3, fvar.
    rewrite !Nat.add_assoc, !Nat.add_0_r. rewrite Nat.add_0_r in G0.
    rewrite G0, G1, G2. ring. }
  split; intros H r Hr.
  - rewrite <- X. exact (H r Hr).
  - change (@n0 Rnum) with 0%R. rewrite X. apply H, Hr.
Qed.
(** Total of the components along [n], and the centre of pressure they define. *)
Definition normal_total (l : list rcon) (n y : rvec) : R := psum l (fun c j => dot3 n (fvar y c j)).
Definition cop_at (l : list rcon) (n y : rvec) (r : nat) : R := (psum l (fun c j => wpoint c j r * dot3 n (fvar y c j)) / normal_total l n y)%R.
Lemma moment_split l (s : copt Rnum) y r : psum l (fun c j => (wpoint c j r - q_ref s r) * dot3 (q_n s) (fvar y c j))%R =
  (psum l (fun c j => wpoint c j r * dot3 (q_n s) (fvar y c j)) - q_ref s r * normal_total l (q_n s) y)%R.
Proof. unfold normal_total. rewrite <- psum_scal, <- psum_minus. apply psum_ext. intros; ring. Qed.
Theorem cop_pins name jk (s : copt Rnum) l : cop_made name s -> three_per_point l -> tiles 0 (map cblock l) (nforces l) ->
  exists s', cop_step s (QCompute jk l) = Ret s' tt /\ forall y, normal_total l (q_n s) y <> 0%R ->
    (sat (q_c s') y <-> forall r, r < 3 -> cop_at l (q_n s) y r = q_ref s r).
Proof.
  intros M H3 HT. destruct (cop_meaning name jk s l M H3 HT) as (s' & E & S). exists s'. split; [exact E|]. intros y HN. rewrite (S y). unfold cop_at.
  split; intros H r Hr; specialize (H r Hr).
  - rewrite moment_split in H. assert (X : psum l (fun c j => wpoint c j r * dot3 (q_n s) (fvar y c j))%R = (q_ref s r * normal_total l (q_n s) y)%R) by lra. rewrite X. field. exact HN.
  - rewrite moment_split, <- H. field. exact HN.
Qed.
(** The world force at a contact point is R f when the contact uses its local frame. *)
Definition true_normal_total (l : list rcon) (n y : rvec) : R := psum l (fun c j => dot3 n (rot (w_R c) (fvar y c j))).
Definition true_cop (l : list rcon) (n y : rvec) (r : nat) : R := (psum l (fun c j => wpoint c j r * dot3 n (rot (w_R c) (fvar y c j))) / true_normal_total l n y)%R.
Definition keeps_normal (l : list rcon) (n : rvec) : Prop := forall c, In c l -> forall k, k < 3 -> rot (tr (w_R c)) n k = n k.
Lemma dot_rot Q n x : (forall k, k < 3 -> rot (tr Q) n k = n k) -> dot3 n (rot Q x) = dot3 n x.
Proof.
  intros H. assert (H0 := H 0 ltac:(lia)). assert (H1 := H 1 ltac:(lia)). assert (H2 := H 2 ltac:(lia)). unfold rot, tr in H0, H1, H2. unfold dot3, rot.
  transitivity ((Q 0%nat 0%nat * n 0%nat + Q 1%nat 0%nat * n 1%nat + Q 2%nat 0%nat * n 2%nat) * x 0%nat + (Q 0%nat 1%nat * n 0%nat + Q 1%nat 1%nat * n 1%nat + Q 2%nat 1%nat * n 2%nat) * x 1%nat
     + (Q 0%nat 2%nat * n 0%nat + Q 1%nat 2%nat * n 1%nat + Q 2%nat 2%nat * n 2%nat) * x 2%nat)%R; [ring|]. rewrite H0, H1, H2. ring.
Qed.
Theorem cop_pins_local name jk (s : copt Rnum) l : cop_made name s -> three_per_point l -> tiles 0 (map cblock l) (nforces l) -> keeps_normal l (q_n s) ->
  exists s', cop_step s (QCompute jk l) = Ret s' tt /\ forall y, true_normal_total l (q_n s) y <> 0%R ->
    (sat (q_c s') y <-> forall r, r < 3 -> true_cop l (q_n s) y r = q_ref s r).
Proof.
  intros M H3 HT HK. destruct (cop_pins name jk s l M H3 HT) as (s' & E & S). exists s'. split; [exact E|]. intros y.
  assert (A : true_normal_total l (q_n s) y = normal_total l (q_n s) y).
  { apply psum_ext. intros c j Hc _. apply dot_rot. exact (HK c Hc). }
  assert (B : forall r, true_cop l (q_n s) y r = cop_at l (q_n s) y r).
  { intros r. unfold true_cop, cop_at. rewrite A. f_equal. apply psum_ext. intros c j Hc _. rewrite dot_rot by exact (HK c Hc). reflexivity. }
  rewrite A. intros HN. rewrite (S y HN). split; intros H r Hr; [rewrite B|rewrite <- B]; auto.
Qed.
(** A reference outside the plane of the contact points forces the normal forces to sum
    to zero. *)
Theorem cop_off_plane name jk (s : copt Rnum) l h : cop_made name s -> three_per_point l -> tiles 0 (map cblock l) (nforces l) ->
  (forall c j, In c l -> j < mcols (w_pts c) -> dot3 (q_n s) (vminus (wpoint c j) (q_ref s)) = h) -> h <> 0%R ->
  exists s', cop_step s (QCompute jk l) = Ret s' tt /\ forall y, sat (q_c s') y -> normal_total l (q_n s) y = 0%R.
Proof.
  intros M H3 HT HP Hh. destruct (cop_meaning name jk s l M H3 HT) as (s' & E & S). exists s'. split; [exact E|]. intros y H. rewrite (S y) in H.
  assert (H0 := H 0 ltac:(lia)). assert (H1 := H 1 ltac:(lia)). assert (H2 := H 2 ltac:(lia)).
  assert (X : psum l (fun c j => h * dot3 (q_n s) (fvar y c j))%R = 0%R).
  { rewrite (psum_ext l _ (fun c j => q_n s 0%nat * ((wpoint c j 0%nat - q_ref s 0%nat) * dot3 (q_n s) (fvar y c j)) - (- q_n s 1%nat * ((wpoint c j 1%nat - q_ref s 1%nat) * dot3 (q_n s) (fvar y c j)) - q_n s 2%nat * ((wpoint c j 2%nat - q_ref s 2%nat) * dot3 (q_n s) (fvar y c j))))%R).
    - rewrite !psum_minus, !psum_scal, H0, H1, H2. lra.
    - intros c j Hc Hj. rewrite <- (HP c j Hc Hj). unfold dot3 at 1, vminus. ring. }
  rewrite psum_scal in X. unfold normal_total. apply Rmult_integral in X. destruct X as [X|X]; [contradiction|exact X].
Qed.
(** A contact frame rotated about x: the task is satisfied with the centre of pressure
    away from the reference. *)
Definition Rx : rmat := fun i j => match i, j with 0, 0 => 1%R | 1, 2 => (-1)%R | 2, 1 => 1%R | _, _ => 0%R end.
Definition e_x : rvec := fun i => match i with 0 => 1%R | _ => 0%R end.
Definition tilted : rcon := @mkCcon Rnum 0 3 (@mkMat Rnum 3 1 (fun _ _ => 0%R)) Rx e_x.
Definition e_y : rvec := fun i => match i with 1 => 1%R | _ => 0%R end.
Lemma Rx_orth : orthogonal Rx.
Proof. intros x i Hi. destruct i as [|[|[|i]]]; [| | |lia]; unfold rot, tr; cbn; split; ring. Qed.
Theorem cop_true_refuted : forall name jk, exists (s s' : copt Rnum) (l : list rcon) (y : rvec), cop_made name s /\ three_per_point l /\ tiles 0 (map cblock l) (nforces l) /\
  (forall c, In c l -> orthogonal (w_R c)) /\ cop_step s (QCompute jk l) = Ret s' tt /\ sat (q_c s') y /\
  true_normal_total l (q_n s) y = 1%R /\ true_cop l (q_n s) y 0 = 1%R /\ q_ref s 0 = 0%R.
Proof.
  intros name jk. assert (M : @cop_made Rnum name (cop_new name)) by constructor.
  assert (H3 : three_per_point [tilted]) by (intros c [<-|[]]; reflexivity).
  assert (HT : tiles 0 (map cblock [tilted]) (nforces [tilted])) by (cbn; auto).
  destruct (cop_meaning name jk (cop_new name) [tilted] M H3 HT) as (s' & E & S).
  exists (cop_new name), s', [tilted], e_y. split; [exact M|]. split; [exact H3|]. split; [exact HT|].
  split; [intros c [<-|[]]; exact Rx_orth|]. split; [exact E|]. split.
  - apply S. intros r Hr. unfold psum, dot3, fvar, lsum. cbn. lra.
  - unfold true_cop, true_normal_total, psum, wpoint, dot3, fvar, rot, lsum. cbn. split; [lra|]. split; [field|lra].
Qed.
