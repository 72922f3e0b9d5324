(** The masked rows written by the frame and centre-of-mass tasks, for every mask. *)
From Coq Require Import String List Arith Bool ZArith QArith Lia.
From Verif Require Import Scalar Outcome Linalg Constraint Masks FrameTasks.
Import ListNotations.
Open Scope list_scope.
Open Scope nat_scope.

Section P.
Context {K : num} (toZ : K -> Z).
(** The components with mask 1 among the first [n], in order. *)
Definition ons (n : nat) (m : vec K) : list nat := filter (fun i => (vget m i =? n1)%num) (seq 0 n).
Lemma ons_S n m : ons (S n) m = ons n m ++ (if (vget m n =? n1)%num then [n] else []).
Proof. unfold ons. rewrite seq_S, filter_app. cbn [Nat.add filter]. reflexivity. Qed.
Lemma ons_in n m i : In i (ons n m) <-> i < n /\ (vget m i =? n1)%num = true.
Proof. unfold ons. rewrite filter_In, in_seq. intuition lia. Qed.
Lemma ofold_app {A B} (f : A -> B -> option A) l l' a :
  ofold f (l ++ l') a = match ofold f l a with Some a' => ofold f l' a' | None => None end.
Proof. revert a. induction l as [|b l IH]; intros a; cbn; [reflexivity|]. destruct (f a b); [apply IH|reflexivity]. Qed.

Section Loop.
Variables (m : vec K) (nv d : nat) (J : nat -> nat -> K) (ad dr pe ve : nat -> K) (st0 : rows K).
Definition sized (st : rows K) : Prop :=
  mrows (k_A st) = d /\ mcols (k_A st) = nv /\ vlen (k_b st) = d /\ vlen (k_ad st) = d /\ vlen (k_dr st) = d /\ vlen (k_pe st) = d /\ vlen (k_ve st) = d.
Definition filled (n : nat) (st : rows K) : Prop :=
  k_idx st = length (ons n m) /\ sized st /\
  (forall j i, nth_error (ons n m) j = Some i -> (forall c, mget (k_A st) j c = J i c) /\ vget (k_b st) j = (ad i - dr i)%num /\
      vget (k_ad st) j = ad i /\ vget (k_dr st) j = dr i /\ vget (k_pe st) j = pe i /\ vget (k_ve st) j = ve i) /\
  (forall j, length (ons n m) <= j -> (forall c, mget (k_A st) j c = mget (k_A st0) j c) /\ vget (k_b st) j = vget (k_b st0) j).
Hypothesis Hi0 : k_idx st0 = 0.
Hypothesis Hs0 : sized st0.
Local Notation loop n := (ofold (row_step m nv J ad dr pe ve) (seq 0 n) st0).
Lemma loop_some n st : loop n = Some st -> filled n st /\ n <= vlen m /\ length (ons n m) <= d.
Proof.
  revert st. induction n as [|n IH]; intros st E.
  - cbn in E. injection E as <-. split; [|cbn; lia]. split; [exact Hi0|]. split; [exact Hs0|]. split; [intros [|j] i X; discriminate|]. auto.
  - rewrite seq_S, ofold_app in E. destruct (loop n) as [s1|] eqn:E1; [|discriminate]. destruct (IH s1 eq_refl) as ((I1 & I2 & I3 & I4) & H1 & H2).
    cbn [Nat.add ofold] in E. unfold row_step in E. destruct (n <? vlen m) eqn:EN; [|discriminate]. apply Nat.ltb_lt in EN.
    rewrite ons_S. destruct (vget m n =? n1)%num eqn:EM.
    + rewrite I1 in E. destruct I2 as (S1 & S2 & S3 & S4 & S5 & S6 & S7). rewrite S1, S2, S3, S4, S5, S6, S7 in E.
      destruct (length (ons n m) <? d) eqn:EL; [|discriminate]. apply Nat.ltb_lt in EL. rewrite Nat.eqb_refl in E. cbn [andb] in E. injection E as <-.
      rewrite app_length. cbn [length]. split; [|lia]. unfold filled. rewrite ons_S, EM, app_length. cbn [length k_idx k_A k_b k_ad k_dr k_pe k_ve].
      split; [lia|]. split; [repeat split; assumption|]. cbn [mput vput mget vget]. split.
      * intros j i Hj. destruct (j =? length (ons n m)) eqn:EJ.
        -- apply Nat.eqb_eq in EJ. subst j. rewrite nth_error_app2, Nat.sub_diag in Hj by lia. cbn in Hj. injection Hj as <-. repeat split.
        -- apply Nat.eqb_neq in EJ. rewrite nth_error_app1 in Hj; [apply I3; exact Hj|].
           assert (j < length (ons n m ++ [n])) by (apply nth_error_Some; congruence). rewrite app_length in H. cbn in H. lia.
      * intros j Hj. replace (j =? length (ons n m)) with false by (symmetry; apply Nat.eqb_neq; lia). apply I4. lia.
    + injection E as <-. rewrite app_nil_r. split; [|lia]. unfold filled. rewrite ons_S, EM, app_nil_r. auto.
Qed.
Lemma loop_def n : n <= vlen m -> length (ons n m) <= d -> exists st, loop n = Some st.
Proof.
  induction n as [|n IH]; intros H1 H2; [eexists; reflexivity|]. rewrite ons_S, app_length in H2. destruct IH as [s1 E1]; [lia|lia|].
  rewrite seq_S, ofold_app, E1. cbn [Nat.add ofold]. destruct (loop_some n s1 E1) as ((I1 & I2 & _) & _). unfold row_step.
  replace (n <? vlen m) with true by (symmetry; apply Nat.ltb_lt; lia). destruct (vget m n =? n1)%num; [|eexists; reflexivity].
  rewrite I1. destruct I2 as (S1 & S2 & S3 & S4 & S5 & S6 & S7). rewrite S1, S2, S3, S4, S5, S6, S7. cbn in H2.
  replace (length (ons n m) <? d) with true by (symmetry; apply Nat.ltb_lt; lia). rewrite Nat.eqb_refl. eexists; reflexivity.
Qed.
End Loop.

(** * The constraint and the masked vectors of a task with [n] components *)
Definition mdim (m : vec K) : nat := Z.to_nat (toZ (nsum (vlen m) (vget m))).
(** The task keeps [d] rows; those behind the ones written by compute stay zero. *)
Record hinv (n nv : nat) (m : vec K) (h : mtask K) : Prop := mkHinv {
  hi_kind : c_kind (h_c h) = CEq; hi_rows : mrows (c_mat (h_c h)) = mdim m; hi_cols : mcols (c_mat (h_c h)) = nv;
  hi_vec : vlen (c_vec (h_c h)) = mdim m; hi_ad : vlen (h_ad h) = mdim m; hi_dr : vlen (h_dr h) = mdim m;
  hi_pe : vlen (h_pe h) = mdim m; hi_ve : vlen (h_ve h) = mdim m;
  hi_rest : forall j, length (ons n m) <= j -> (forall c, mget (c_mat (h_c h)) j c = n0) /\ vget (c_vec (h_c h)) j = n0 }.
Lemma mask_inv n nv jk m h h' : c_kind (h_c h) = CEq -> mt_mask toZ jk m nv h = Some h' -> hinv n nv m h'.
Proof.
  intros HK. unfold mt_mask, cresize. rewrite HK. destruct (_ <? 0)%Z; [discriminate|]. cbn [obind]. intros E. injection E as <-.
  split; cbn [h_c h_ad h_dr h_pe h_ve c_kind c_mat c_vec mrows mcols vlen mzero vzero mget vget]; reflexivity || auto.
Qed.
Lemma mask_def jk nv m h : c_kind (h_c h) = CEq -> (0 <= toZ (nsum (vlen m) (vget m)))%Z <-> exists h', mt_mask toZ jk m nv h = Some h'.
Proof.
  intros HK. unfold mt_mask, cresize. rewrite HK. destruct (_ <? 0)%Z eqn:E.
  - apply Z.ltb_lt in E. split; [lia|intros [h' X]; discriminate].
  - apply Z.ltb_ge in E. cbn [obind]. split; [intros _; eexists; reflexivity|auto].
Qed.
(** What compute leaves behind. *)
Definition done (n nv : nat) (m : vec K) (J : nat -> nat -> K) (ad dr pe ve : nat -> K) (h : mtask K) : Prop :=
  hinv n nv m h /\ length (ons n m) <= mdim m /\ n <= vlen m /\
  forall j i, nth_error (ons n m) j = Some i -> (forall c, mget (c_mat (h_c h)) j c = J i c) /\ vget (c_vec (h_c h)) j = (ad i - dr i)%num /\
      vget (h_ad h) j = ad i /\ vget (h_dr h) j = dr i /\ vget (h_pe h) j = pe i /\ vget (h_ve h) j = ve i.
Lemma rows_some n nv m J ad dr pe ve h h' : hinv n nv m h -> mt_rows n m nv J ad dr pe ve h = Some h' -> done n nv m J ad dr pe ve h'.
Proof.
  intros I. unfold mt_rows. destruct (ofold _ _ _) as [st|] eqn:E; [|discriminate]. cbn [obind].
  apply (loop_some m nv (mdim m)) in E; [|reflexivity|repeat split; apply I].
  destruct E as ((I1 & (S1 & S2 & S3 & S4 & S5 & S6 & S7) & I3 & I4) & H1 & H2).
  unfold cset_vec, cset_mat. cbn [c_kind]. rewrite (hi_kind _ _ _ _ I). cbn [obind]. intros E. injection E as <-.
  split; [|split; [exact H2|split; [exact H1|]]]; cbn [h_c h_ad h_dr h_pe h_ve c_mat c_vec].
  - split; cbn [h_c h_ad h_dr h_pe h_ve c_kind c_mat c_vec]; auto. intros j Hj. destruct (I4 j Hj) as [A B]. destruct (hi_rest _ _ _ _ I j Hj) as [A' B'].
    cbn [k_A k_b] in A, B. split; [intros c; rewrite A; apply A'|congruence].
  - exact I3.
Qed.
Lemma rows_def n nv m J ad dr pe ve h : hinv n nv m h -> n <= vlen m -> length (ons n m) <= mdim m ->
  exists h', mt_rows n m nv J ad dr pe ve h = Some h'.
Proof.
  intros I H1 H2. unfold mt_rows.
  destruct (loop_def m nv (mdim m) J ad dr pe ve (mkRows 0 (c_mat (h_c h)) (c_vec (h_c h)) (h_ad h) (h_dr h) (h_pe h) (h_ve h))) with (n := n) as [st E]; auto.
  { repeat split; apply I. }
  rewrite E. cbn [obind]. unfold cset_vec, cset_mat. cbn [c_kind]. rewrite (hi_kind _ _ _ _ I). cbn [obind]. eexists; reflexivity.
Qed.
End P.

(** * Task states reached by any calls *)
Section Reach.
Context {K : num} (toZ : K -> Z) (log3 : (nat -> nat -> K) -> nat -> K).
Local Notation anyop := (fun _ _ => True).
Definition se3_made (name : string) (nv : nat) (s : se3t K) : Prop :=
  exists jk s0, se3_new toZ jk name nv = Some s0 /\ reach (se3_step toZ log3) anyop s0 s.
Definition tf_made (name : string) (nv : nat) (s : tft K) : Prop :=
  exists jk s0, tf_new toZ jk name nv = Some s0 /\ reach (tf_step toZ log3) anyop s0 s.
Definition com_made (name : string) (nv : nat) (s : comt K) : Prop :=
  exists jk s0, com_new toZ jk name nv = Some s0 /\ reach (com_step toZ) anyop s0 s.
Definition am_made (name : string) (nv : nat) (s : amt K) : Prop := reach am_step anyop (am_new name nv) s.

Record xinv (nv : nat) (s : se3t K) : Prop := mkXinv { xi_nv : x_nv s = nv; xi_kp : vlen (x_kp s) = 6; xi_kd : vlen (x_kd s) = 6; xi_h : hinv toZ 6 nv (x_mask s) (x_h s) }.
Record yinv (nv : nat) (s : tft K) : Prop := mkYinv { yi_nv : y_nv s = nv; yi_kp : vlen (y_kp s) = 6; yi_kd : vlen (y_kd s) = 6; yi_h : hinv toZ 6 nv (y_mask s) (y_h s) }.
Record zinv (nv : nat) (s : comt K) : Prop := mkZinv { zi_nv : z_nv s = nv; zi_mask : vlen (z_mask s) = 3; zi_h : hinv toZ 3 nv (z_mask s) (z_h s) }.
Record oinv (name : string) (nv : nat) (s : amt K) : Prop := mkOinv { oi_nv : o_nv s = nv; oi_kind : c_kind (o_c s) = CEq;
  oi_rows : mrows (c_mat (o_c s)) = 3; oi_cols : mcols (c_mat (o_c s)) = nv; oi_vec : vlen (c_vec (o_c s)) = 3 }.

Lemma se3_inv name nv s : se3_made name nv s -> xinv nv s.
Proof.
  intros (jk & s0 & E & R). assert (I0 : xinv nv s0).
  { unfold se3_new in E. destruct (mt_mask _ _ _ _ _) as [h|] eqn:EH; [|discriminate]. cbn [obind] in E. injection E as <-.
    split; cbn [x_nv x_kp x_kd x_mask x_h]; auto. eapply mask_inv; [|exact EH]. reflexivity. }
  clear E. revert R. apply (reach_inv _ _ (xinv nv)); [exact I0|]. clear. intros s o s' [I1 I2 I3 I4] _ E. destruct o; cbn [se3_step] in E.
  - destruct (vlen k =? 6) eqn:X; cbn in E; injection E as <-; [apply Nat.eqb_eq in X|]; split; cbn; auto.
  - destruct (vlen k =? 6) eqn:X; cbn in E; injection E as <-; [apply Nat.eqb_eq in X|]; split; cbn; auto.
  - unfold se3_ref in E. destruct (vlen val =? 12); [destruct (_ && _); [|discriminate]|]; cbn [after] in E; injection E as <-; split; cbn [x_nv x_kp x_kd x_mask x_h]; auto.
  - unfold se3_ref in E. cbn [vlen vzero se3_to_vec Nat.eqb andb after] in E. injection E as <-; split; cbn [x_nv x_kp x_kd x_mask x_h]; auto.
  - destruct (mt_mask _ _ _ _ _) as [h|] eqn:EH; [|discriminate]. cbn [after] in E. injection E as <-. split; cbn [x_nv x_kp x_kd x_mask x_h]; auto.
    eapply mask_inv; [apply I4|]. rewrite <- I1. exact EH.
  - cbn [after] in E. injection E as <-. split; auto.
  - unfold se3_compute in E. destruct (guard _); [|discriminate]. cbn [obind] in E. destruct (mt_rows _ _ _ _ _ _ _ _ _) as [h|] eqn:EH; [|discriminate].
    cbn [obind after] in E. injection E as <-. split; cbn [x_nv x_kp x_kd x_mask x_h]; auto. rewrite I1 in EH. eapply rows_some in EH; [|exact I4]. apply EH.
Qed.
Lemma tf_inv name nv s : tf_made name nv s -> yinv nv s.
Proof.
  intros (jk & s0 & E & R). assert (I0 : yinv nv s0).
  { unfold tf_new in E. destruct (mt_mask _ _ _ _ _) as [h|] eqn:EH; [|discriminate]. cbn [obind] in E. injection E as <-.
    split; cbn [y_nv y_kp y_kd y_mask y_h]; auto. eapply mask_inv; [|exact EH]. reflexivity. }
  clear E. revert R. apply (reach_inv _ _ (yinv nv)); [exact I0|]. clear. intros s o s' [I1 I2 I3 I4] _ E. destruct o; cbn [tf_step] in E.
  - destruct (vlen k =? 6) eqn:X; cbn in E; [injection E as <-; apply Nat.eqb_eq in X|discriminate]; split; cbn; auto.
  - destruct (vlen k =? 6) eqn:X; cbn in E; [injection E as <-; apply Nat.eqb_eq in X|discriminate]; split; cbn; auto.
  - destruct (mt_mask _ _ _ _ _) as [h|] eqn:EH; [|discriminate]. cbn [after] in E. injection E as <-. split; cbn [y_nv y_kp y_kd y_mask y_h]; auto.
    eapply mask_inv; [apply I4|]. rewrite <- I1. exact EH.
  - destruct (guard _); [|discriminate]. cbn [obind] in E. destruct (mt_rows _ _ _ _ _ _ _ _ _) as [h|] eqn:EH; [|discriminate].
    cbn [obind after] in E. injection E as <-. split; cbn [y_nv y_kp y_kd y_mask y_h]; auto. rewrite I1 in EH. eapply rows_some in EH; [|exact I4]. apply EH.
Qed.
Lemma com_inv name nv s : com_made name nv s -> zinv nv s.
Proof.
  intros (jk & s0 & E & R). assert (I0 : zinv nv s0).
  { unfold com_new in E. destruct (mt_mask _ _ _ _ _) as [h|] eqn:EH; [|discriminate]. cbn [obind] in E. injection E as <-.
    split; cbn [z_nv z_mask z_h]; auto. eapply mask_inv; [|exact EH]. reflexivity. }
  clear E. revert R. apply (reach_inv _ _ (zinv nv)); [exact I0|]. clear. intros s o s' [I1 I2 I3] _ E. destruct o; cbn [com_step] in E.
  - destruct (vlen k =? 3) eqn:X; cbn in E; injection E as <-; split; cbn; auto.
  - destruct (vlen k =? 3) eqn:X; cbn in E; injection E as <-; split; cbn; auto.
  - cbn in E. injection E as <-. split; auto.
  - destruct (vlen m =? 3) eqn:X; [|cbn in E; injection E as <-; split; auto]. apply Nat.eqb_eq in X.
    destruct (mt_mask _ _ _ _ _) as [h|] eqn:EH; [|discriminate]. cbn [after] in E. injection E as <-. split; cbn [z_nv z_mask z_h]; auto.
    eapply mask_inv; [apply I3|]. rewrite <- I1. exact EH.
  - destruct (guard _); [|discriminate]. cbn [obind] in E. destruct (mt_rows _ _ _ _ _ _ _ _ _) as [h|] eqn:EH; [|discriminate].
    cbn [obind after] in E. injection E as <-. split; cbn [z_nv z_mask z_h]; auto. rewrite I1 in EH. eapply rows_some in EH; [|exact I3]. apply EH.
Qed.
Lemma am_inv name nv s : am_made name nv s -> oinv name nv s.
Proof.
  intros R. assert (I0 : oinv name nv (am_new name nv)) by (split; reflexivity).
  revert R. apply (reach_inv _ _ (oinv name nv)); [exact I0|]. clear. intros s o s' [I1 I2 I3 I4 I5] _ E. destruct o; cbn [am_step] in E.
  - destruct (vlen k =? 3) eqn:X; cbn in E; injection E as <-; split; cbn; auto.
  - destruct (vlen k =? 3) eqn:X; cbn in E; injection E as <-; split; cbn; auto.
  - cbn in E. injection E as <-. split; auto.
  - unfold am_compute in E. destruct (guard _); [|discriminate]. cbn [obind] in E. destruct (guard _); [|discriminate]. cbn [obind] in E.
    unfold cset_vec, cset_mat in E. cbn [c_kind] in E. rewrite I2 in E. cbn [obind after] in E. injection E as <-.
    split; cbn [o_nv o_c c_kind c_mat c_vec mrows mcols vlen]; auto.
Qed.

(** What a successful compute leaves behind. *)
Lemma se3_done name nv s d s' : se3_made name nv s -> se3_step toZ log3 s (XCompute d) = Ret s' tt ->
  x_mask s' = x_mask s /\ x_kp s' = x_kp s /\ x_kd s' = x_kd s /\ x_local s' = x_local s /\
  x_v s' = mkVec 6 (d_v d) /\ x_vr s' = mkVec 6 (x_vd s) /\ x_p s' = se3_to_vec (d_R d) (d_p d) /\ x_pr s' = se3_to_vec (x_Rd s) (x_pd s) /\
  done toZ 6 nv (x_mask s) (se3_J s d) (se3_ades log3 s d) (se3_drift s d) (se3_pe log3 s d) (se3_ve s d) (x_h s').
Proof.
  intros M E. destruct (se3_inv _ _ _ M) as [I1 I2 I3 I4]. cbn [se3_step] in E. unfold se3_compute in E. destruct (guard _); [|discriminate]. cbn [obind] in E.
  destruct (mt_rows _ _ _ _ _ _ _ _ _) as [h|] eqn:EH; [|discriminate]. cbn [obind] in E. injection E as <-.
  cbn [x_mask x_kp x_kd x_local x_v x_vr x_p x_pr x_h]. repeat (split; [reflexivity|]). rewrite I1 in EH. eapply rows_some; eauto.
Qed.
Lemma tf_done name nv s d1 d2 s' : tf_made name nv s -> tf_step toZ log3 s (YCompute d1 d2) = Ret s' tt ->
  y_mask s' = y_mask s /\ y_kp s' = y_kp s /\ y_kd s' = y_kd s /\
  done toZ 6 nv (y_mask s) (tf_J d1 d2) (tf_ades log3 s d1 d2) (tf_drift d1 d2) (tf_pe log3 d1 d2) (tf_ve d1 d2) (y_h s').
Proof.
  intros M E. destruct (tf_inv _ _ _ M) as [I1 I2 I3 I4]. cbn [tf_step] in E. destruct (guard _); [|discriminate]. cbn [obind] in E.
  destruct (mt_rows _ _ _ _ _ _ _ _ _) as [h|] eqn:EH; [|discriminate]. injection E as <-.
  cbn [y_mask y_kp y_kd y_h]. repeat (split; [reflexivity|]). rewrite I1 in EH. eapply rows_some; eauto.
Qed.
Lemma com_done name nv s d s' : com_made name nv s -> com_step toZ s (ZCompute d) = Ret s' tt ->
  z_mask s' = z_mask s /\ z_kp s' = z_kp s /\ z_kd s' = z_kd s /\ z_val s' = z_val s /\ z_der s' = z_der s /\ z_sec s' = z_sec s /\
  done toZ 3 nv (z_mask s) (g_J d) (com_ades s d) (g_a d) (com_pe s d) (com_ve s d) (z_h s').
Proof.
  intros M E. destruct (com_inv _ _ _ M) as [I1 I2 I3]. cbn [com_step] in E. destruct (guard _); [|discriminate]. cbn [obind] in E.
  destruct (mt_rows _ _ _ _ _ _ _ _ _) as [h|] eqn:EH; [|discriminate]. injection E as <-.
  cbn [z_mask z_kp z_kd z_val z_der z_sec z_h]. repeat (split; [reflexivity|]). rewrite I1 in EH. eapply rows_some; eauto.
Qed.
(** compute is defined exactly for the masks that have enough entries and reserve enough rows. *)
Theorem se3_defined name nv s d : se3_made name nv s ->
  (exists s', se3_step toZ log3 s (XCompute d) = Ret s' tt) <-> 6 <= vlen (x_mask s) /\ length (ons 6 (x_mask s)) <= mdim toZ (x_mask s).
Proof.
  intros M. split.
  - intros [s' E]. destruct (se3_done _ _ _ _ _ M E) as (_ & _ & _ & _ & _ & _ & _ & _ & _ & A & B & _). auto.
  - intros [A B]. destruct (se3_inv _ _ _ M) as [I1 I2 I3 I4]. cbn [se3_step]. unfold se3_compute. rewrite I2, I3. cbn [Nat.eqb andb guard obind]. rewrite I1.
    destruct (rows_def toZ 6 nv (x_mask s) (se3_J s d) (se3_ades log3 s d) (se3_drift s d) (se3_pe log3 s d) (se3_ve s d) (x_h s) I4 A B) as [h ->]. cbn [obind]. eexists; reflexivity.
Qed.
Theorem tf_defined name nv s d1 d2 : tf_made name nv s ->
  (exists s', tf_step toZ log3 s (YCompute d1 d2) = Ret s' tt) <-> 6 <= vlen (y_mask s) /\ length (ons 6 (y_mask s)) <= mdim toZ (y_mask s).
Proof.
  intros M. split.
  - intros [s' E]. destruct (tf_done _ _ _ _ _ _ M E) as (_ & _ & _ & _ & A & B & _). auto.
  - intros [A B]. destruct (tf_inv _ _ _ M) as [I1 I2 I3 I4]. cbn [tf_step]. rewrite I2, I3. cbn [Nat.eqb andb guard obind]. rewrite I1.
    destruct (rows_def toZ 6 nv (y_mask s) (tf_J d1 d2) (tf_ades log3 s d1 d2) (tf_drift d1 d2) (tf_pe log3 d1 d2) (tf_ve d1 d2) (y_h s) I4 A B) as [h ->]. eexists; reflexivity.
Qed.
Theorem com_defined name nv s d : com_made name nv s ->
  (exists s', com_step toZ s (ZCompute d) = Ret s' tt) <->
  vlen (z_val s) = 3 /\ vlen (z_der s) = 3 /\ vlen (z_sec s) = 3 /\ length (ons 3 (z_mask s)) <= mdim toZ (z_mask s).
Proof.
  intros M. destruct (com_inv _ _ _ M) as [I1 I2 I3]. split.
  - intros [s' E]. destruct (com_done _ _ _ _ _ M E) as (_ & _ & _ & _ & _ & _ & _ & A & _). cbn [com_step] in E.
    destruct (guard _) eqn:G; [|discriminate]. unfold guard in G. destruct (_ && _) eqn:X in G; [|discriminate].
    apply andb_true_iff in X as [X X3]. apply andb_true_iff in X as [X1 X2]. rewrite Nat.eqb_eq in X1, X2, X3. auto.
  - intros (L1 & L2 & L3 & B). cbn [com_step]. rewrite L1, L2, L3. cbn [Nat.eqb andb guard obind]. rewrite I1.
    destruct (rows_def toZ 3 nv (z_mask s) (g_J d) (com_ades s d) (g_a d) (com_pe s d) (com_ve s d) (z_h s) I3) as [h ->]; [lia|exact B|]. eexists; reflexivity.
Qed.
End Reach.
