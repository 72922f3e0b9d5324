(** Force generator, regularisation task and centre of pressure. *)
From Coq Require Import String List Arith Bool QArith Reals Qreals Lia Lra.
From Verif Require Import Scalar Outcome Linalg Constraint FormPhysSpec RSum Contacts ContactSpec ContactProofs ContactReal.
Import ListNotations.
Open Scope string_scope.
Open Scope list_scope.
Open Scope nat_scope.

Section Gen.
Context {K : num}.
Variable sq : K -> K.
Local Notation cstep := (cstep sq).

Lemma gen_entry (G P : mat K) r c : r < 6 -> c < 12 ->
  mget (force_gen K6 G P) r c =
  if r <? 3 then (if r =? c mod 3 then n1 else n0) else skew (mcol P (c / 3)) (r - 3) (c mod 3).
Proof.
  intros Hr Hc. do 6 (destruct r as [|r]; [do 12 (destruct c as [|c]; [reflexivity|]); lia|]). lia.
Qed.
(** The generator is the one of the current points; sizes of the members. *)
Definition gen_ok (k : kind) (s : cont K) : Prop :=
  vlen (k_w s) = nreg k /\ vlen (k_fref s) = nreg k /\
  match k with
  | K6 => mrows (k_gen s) = 6 /\ mcols (k_gen s) = 12 /\
          forall r c, r < 6 -> c < 12 -> mget (k_gen s) r c =
            if r <? 3 then (if r =? c mod 3 then n1 else n0) else skew (mcol (k_pts s) (c / 3)) (r - 3) (c mod 3)
  | _ => k_gen s = mident 3 3
  end.
(** The regularisation task is the one of the current generator, weights and
    reference. *)
Definition fresh (k : kind) (s : cont K) : Prop :=
  force_reg k (c_name (k_reg s)) (k_w s) (k_fref s) (k_gen s) = Some (k_reg s).

Lemma reg_name k name (w f : vec K) G c : force_reg k name w f G = Some c -> c_name c = name.
Proof.
  unfold force_reg. destruct (match k with K6 => _ | _ => _ end) as [A|]; [cbn [obind]|discriminate].
  destruct (mvec (diag w) f) as [b|]; [cbn [obind]|discriminate]. intros H; injection H as <-. reflexivity.
Qed.
Lemma gen_init k dbg jk name P n mu fmin fmax s :
  cont_new sq k dbg jk name P n mu fmin fmax = Some s -> gen_ok k s /\ fresh k s.
Proof.
  unfold cont_new. destruct (match k with K6 => _ | KP => _ | K2 => _ end) as [[]|]; [cbn [obind]|discriminate].
  destruct (force_reg k name _ _ _) as [r|] eqn:E; [cbn [obind]|discriminate].
  intros H; injection H as <-. pose proof (reg_name _ _ _ _ _ _ E) as N.
  split; [|unfold fresh; cbn [k_reg k_w k_fref k_gen]; rewrite N; exact E].
  unfold gen_ok. cbn [k_w k_fref k_gen k_pts].
  split; [destruct k; reflexivity|]. split; [reflexivity|].
  destruct k; [|reflexivity|reflexivity]. split; [reflexivity|]. split; [reflexivity|]. intros; apply gen_entry; assumption.
Qed.
Lemma gen_step k s (o : cop K k) s' r : gen_ok k s -> cstep k s o = Ret s' r -> gen_ok k s'.
Proof.
  intros (W & F & G). destruct o as [P|k n|k mu|k f|k f|k f|k w]; cbn [Contacts.cstep].
  - intros H. apply check_ret in H as (E & -> & _). apply andb_true_iff in E as [E1 E2]. apply Nat.eqb_eq in E1, E2.
    destruct G as (G1 & G2 & G3). unfold gen_ok. cbn [k_w k_fref k_gen k_pts].
    split; [exact W|]. split; [exact F|]. split; [exact G1|]. split; [exact G2|]. intros; apply gen_entry; assumption.
  - destruct k; [| |intros H; injection H as <- _; repeat split; try assumption; apply G];
      intros H; apply check_ret in H as (_ & -> & _); repeat split; try assumption; apply G.
  - destruct k; [| |intros H; injection H as <- _; repeat split; try assumption; apply G];
      intros H; apply check_ret in H as (_ & -> & _); repeat split; try assumption; apply G.
  - destruct k; [| |intros H; injection H as <- _; repeat split; try assumption; apply G];
      intros H; apply check_ret in H as (_ & -> & _); repeat split; try assumption; apply G.
  - destruct k; [| |intros H; injection H as <- _; repeat split; try assumption; apply G];
      intros H; apply check_ret in H as (_ & -> & _); repeat split; try assumption; apply G.
  - intros H. assert (X : vlen f = nreg k /\ exists c, s' = w_reg s f (k_w s) c).
    { destruct k; (destruct (vlen f =? _) eqn:L; [|discriminate]); apply Nat.eqb_eq in L;
        apply reg_ret in H as (c & _ & -> & _); split; eauto. }
    destruct X as [L [c ->]]. split; [exact W|]. split; [exact L|exact G].
  - destruct (vlen w =? nreg k) eqn:L; [|discriminate]. apply Nat.eqb_eq in L.
    intros H. apply reg_ret in H as (c & _ & -> & _). split; [exact L|]. split; [exact F|exact G].
Qed.
Theorem made_gen k dbg name s : made sq k dbg name s -> gen_ok k s.
Proof.
  intros (jk & P & n & mu & fmin & fmax & s0 & H0 & Hr). apply gen_init in H0 as [G _].
  revert Hr. apply (reach_inv (cstep k) (any_call k) (gen_ok k)); [exact G|].
  intros s1 o s2 G1 _ A. apply after_case in A as [[r E]|E]; [eapply gen_step; eassumption|].
  apply setter_exc in E as ->. exact G1.
Qed.

(** Calls other than setContactPoints. *)
Definition keeps_points {k} (o : cop K k) : Prop := match o with SetPoints _ => False | _ => True end.
(** setForceReference and setRegularizationTaskWeightVector. *)
Definition sets_reg {k} (o : cop K k) : Prop := match o with SetFref _ _ | SetWeights _ _ => True | _ => False end.
Lemma fresh_refresh k s (o : cop K k) s' r : sets_reg o -> cstep k s o = Ret s' r -> fresh k s'.
Proof.
  destruct o as [P|k n|k mu|k f|k f|k f|k w]; cbn [sets_reg]; try tauto; intros _; cbn [Contacts.cstep].
  - intros H. assert (X : exists c, force_reg k (c_name (k_reg s)) (k_w s) f (k_gen s) = Some c /\ s' = w_reg s f (k_w s) c).
    { destruct k; (destruct (vlen f =? _); [|discriminate]); apply reg_ret in H as (c & E & -> & _); eauto. }
    destruct X as (c & E & ->). unfold fresh. cbn [w_reg k_reg k_w k_fref k_gen]. rewrite (reg_name _ _ _ _ _ _ E). exact E.
  - destruct (vlen w =? nreg k); [|discriminate]. intros H. apply reg_ret in H as (c & E & -> & _).
    unfold fresh. cbn [w_reg k_reg k_w k_fref k_gen]. rewrite (reg_name _ _ _ _ _ _ E). exact E.
Qed.
Lemma fresh_step k s (o : cop K k) s' r : keeps_points o -> fresh k s -> cstep k s o = Ret s' r -> fresh k s'.
Proof.
  intros Hk Hf H. destruct o as [P|k n|k mu|k f|k f|k f|k w];
    [destruct Hk| | | | |exact (fresh_refresh k s (SetFref k f) s' r I H)|exact (fresh_refresh k s (SetWeights k w) s' r I H)];
    cbn [Contacts.cstep] in H;
    (destruct k; [apply check_ret in H as (_ & -> & _)|apply check_ret in H as (_ & -> & _)|injection H as <- _]); exact Hf.
Qed.
Lemma fresh_reach k s s' : fresh k s -> reach (cstep k) (fun _ o => keeps_points o) s s' -> fresh k s'.
Proof.
  intros Hf. apply (reach_inv (cstep k) (fun _ o => keeps_points o) (fresh k)); [exact Hf|].
  intros s1 o s2 F1 Hk A. apply after_case in A as [[r E]|E]; [eapply fresh_step; eassumption|].
  apply setter_exc in E as ->. exact F1.
Qed.

(** Setters with arguments of the right size always succeed or throw. *)
Definition right_size {k} (o : cop K k) : Prop :=
  match o with
  | @SetFref _ k f => vlen f = nreg k
  | @SetWeights _ k w => vlen w = nreg k
  | _ => True
  end.
Lemma reg_total k name (s : cont K) (w f : vec K) : gen_ok k s -> vlen w = nreg k -> vlen f = nreg k ->
  exists c, force_reg k name w f (k_gen s) = Some c.
Proof.
  intros (_ & _ & G) Hw Hf. unfold force_reg, mvec, mmul, diag. cbn [mcols mrows]. rewrite Hf, <- Hw, Nat.eqb_refl.
  destruct k; cbn [obind]; [|eauto|eauto]. destruct G as (-> & _). rewrite Hw. cbn [nreg Nat.eqb obind]. eauto.
Qed.
Theorem setters_defined k dbg name s (o : cop K k) : made sq k dbg name s -> right_size o -> cstep k s o <> Undef.
Proof.
  intros Hm Ho. apply made_gen in Hm as G. destruct o as [P|k n|k mu|k f|k f|k f|k w]; cbn [Contacts.cstep right_size] in *; unfold check_arg.
  - destruct (_ && _); discriminate.
  - destruct k; try discriminate; destruct (_ =? _); discriminate.
  - destruct k; try discriminate; destruct (_ <? _)%num; discriminate.
  - destruct k; try discriminate; destruct (_ && _); discriminate.
  - destruct k; try discriminate; destruct (_ <=? _)%num; discriminate.
  - assert (X : refresh_reg k s f (k_w s) <> Undef).
    { unfold refresh_reg. destruct (reg_total k (c_name (k_reg s)) s (k_w s) f G (proj1 G) Ho) as [c ->]. discriminate. }
    destruct k; rewrite Ho, Nat.eqb_refl; exact X.
  - rewrite Ho, Nat.eqb_refl. unfold refresh_reg.
    destruct (reg_total k (c_name (k_reg s)) s w (k_fref s) G Ho (proj1 (proj2 G))) as [c ->]. discriminate.
Qed.
End Gen.

(** * Over the reals *)
Definition is_six (k : kind) : bool := match k with K6 => true | _ => false end.
Lemma gen_wrench k (s : rcont) f r : gen_ok k s -> r < nreg k ->
  mrows (k_gen s) = nreg k /\ mcols (k_gen s) = nforce k /\
  rsum (nforce k) (fun c => mget (k_gen s) r c * f c)%R = wrench (is_six k) (k_pts s) f r.
Proof.
  intros (_ & _ & G) Hr. destruct k; cbn [is_six wrench nreg] in *; unfold nforce; cbn [npts Nat.mul Nat.add].
  - destruct G as (G1 & G2 & G3). split; [exact G1|]. split; [exact G2|]. rewrite !rsum_S, rsum_0. rewrite !G3 by lia.
    unfold resultant, moment. do 6 (destruct r as [|r];
      [cbn [Nat.ltb Nat.leb Nat.eqb Nat.div Nat.modulo Nat.divmod fst snd Nat.sub];
       rewrite !rsum_S, rsum_0; unfold at_point, crs, skew, mcol; cbn [vget Nat.mul Nat.add Nat.sub];
       cbn [Rnum nopp n0 n1]; rring|]). lia.
  - rewrite G. split; [reflexivity|]. split; [reflexivity|]. rewrite !rsum_S, rsum_0.
    destruct r as [|[|[|r]]]; [| | |lia]; unfold mident; cbn [mget Nat.eqb Rnum n0 n1]; rring.
  - rewrite G. split; [reflexivity|]. split; [reflexivity|]. rewrite !rsum_S, rsum_0.
    destruct r as [|[|[|r]]]; [| | |lia]; unfold mident; cbn [mget Nat.eqb Rnum n0 n1]; rring.
Qed.
Theorem generator_meaning k dbg name (s : rcont) : made rsq k dbg name s ->
  mrows (k_gen s) = nreg k /\ mcols (k_gen s) = nforce k /\
  forall f r, r < nreg k -> rsum (nforce k) (fun c => mget (k_gen s) r c * f c)%R = wrench (is_six k) (k_pts s) f r.
Proof.
  intros Hm. apply made_gen in Hm. assert (0 < nreg k) by (destruct k; cbn; lia).
  destruct (gen_wrench k s (fun _ => 0%R) 0 Hm H) as (A & B & _). split; [exact A|]. split; [exact B|].
  intros f r Hr. apply gen_wrench; assumption.
Qed.
Lemma diag_row (w : vec Rnum) i (x : nat -> R) : i < vlen w ->
  rsum (vlen w) (fun q => mget (diag w) i q * x q)%R = (vget w i * x i)%R.
Proof.
  intros Hi. rewrite (rsum_single _ i); [|exact Hi|].
  - unfold diag. cbn [mget]. rewrite Nat.eqb_refl. reflexivity.
  - intros q Hq Hn. unfold diag. cbn [mget]. replace (i =? q) with false by (symmetry; apply Nat.eqb_neq; lia).
    change (0 * x q = 0)%R. ring.
Qed.
Lemma fresh_meaning k (s : rcont) : gen_ok k s -> fresh k s ->
  asks_wrench (is_six k) (nreg k) (k_pts s) (vget (k_w s)) (vget (k_fref s)) (k_reg s).
Proof.
  intros G F. pose proof G as (W & R' & _). unfold fresh, force_reg, mvec in F. cbn [diag mcols mrows] in F.
  rewrite R', W, Nat.eqb_refl in F.
  assert (A : exists A, match k with K6 => mmul (diag (k_w s)) (k_gen s) | _ => Some (diag (k_w s)) end = Some A /\
    mrows A = nreg k /\ mcols A = nforce k /\
    forall f r, r < nreg k -> rsum (nforce k) (fun c => mget A r c * f c)%R = (vget (k_w s) r * wrench (is_six k) (k_pts s) f r)%R).
  { destruct k.
    - destruct (gen_wrench K6 s (fun _ => 0%R) 0 G ltac:(cbn; lia)) as (G1 & G2 & _).
      unfold mmul. cbn [diag mcols]. rewrite W, G1, Nat.eqb_refl. eexists. split; [reflexivity|]. cbn [mrows mcols mget].
      split; [cbn [diag mrows]; exact W|]. split; [exact G2|]. intros f r Hr.
      rewrite <- (proj2 (proj2 (gen_wrench K6 s f r G Hr))), <- rsum_scal. apply rsum_ext. intros c Hc.
      etransitivity; [apply (f_equal (fun z => z * f c)%R)|].
      + rewrite <- W. exact (diag_row (k_w s) r (fun q => mget (k_gen s) q c) ltac:(rewrite W; exact Hr)).
      + cbv beta. apply Rmult_assoc.
    - eexists. split; [reflexivity|]. split; [exact W|]. split; [exact W|]. intros f r Hr.
      change (nforce KP) with (nreg KP). rewrite <- W. apply diag_row. rewrite W; exact Hr.
    - eexists. split; [reflexivity|]. split; [exact W|]. split; [exact W|]. intros f r Hr.
      change (nforce K2) with (nreg K2). rewrite <- W. apply diag_row. rewrite W; exact Hr. }
  destruct A as (A & EA & RA & CA & SA). rewrite EA in F. cbn [obind] in F.
  injection F as F. rewrite <- F. unfold asks_wrench, lhs. cbn [c_kind c_mat c_vec vlen vget].
  split; [reflexivity|]. split; [exact RA|]. split; [reflexivity|]. intros f r Hr. rewrite CA. split; [apply SA; exact Hr|].
  rewrite <- W. apply (diag_row (k_w s) r (vget (k_fref s))). rewrite W; exact Hr.
Qed.
(** After the constructor, setForceReference or setRegularizationTaskWeightVector,
    and until the points change, the task is the one of the current members. *)
Theorem reg_after k dbg name (s : rcont) (o : cop Rnum k) s1 r s2 : made rsq k dbg name s -> sets_reg o ->
  cstep rsq k s o = Ret s1 r -> reach (cstep rsq k) (fun _ o => keeps_points o) s1 s2 ->
  asks_wrench (is_six k) (nreg k) (k_pts s2) (vget (k_w s2)) (vget (k_fref s2)) (k_reg s2).
Proof.
  intros Hm Ho E Hr. apply fresh_meaning.
  - assert (G1 : gen_ok k s1) by (eapply gen_step; [eapply made_gen; exact Hm|exact E]).
    revert Hr. apply (reach_inv (cstep rsq k) (fun _ o => keeps_points o) (gen_ok k)); [exact G1|].
    intros t1 p t2 T _ A. apply after_case in A as [[r' E']|E']; [eapply gen_step; eassumption|].
    apply setter_exc in E' as ->. exact T.
  - eapply fresh_reach; [|exact Hr]. eapply fresh_refresh; eassumption.
Qed.
Theorem reg_new k dbg jk name P n mu fmin fmax (s0 s : rcont) : cont_new rsq k dbg jk name P n mu fmin fmax = Some s0 ->
  reach (cstep rsq k) (fun _ o => keeps_points o) s0 s ->
  asks_wrench (is_six k) (nreg k) (k_pts s) (vget (k_w s)) (vget (k_fref s)) (k_reg s).
Proof.
  intros H Hr. apply gen_init in H as [G F]. apply fresh_meaning.
  - revert Hr. apply (reach_inv (cstep rsq k) (fun _ o => keeps_points o) (gen_ok k)); [exact G|].
    intros t1 p t2 T _ A. apply after_case in A as [[r' E']|E']; [eapply gen_step; eassumption|].
    apply setter_exc in E' as ->. exact T.
  - eapply fresh_reach; eassumption.
Qed.

(** * Centre of pressure *)
Lemma rsum_crs np n (g : nat -> nat -> R) a : crs n (fun b => rsum np (fun i => g i b)) a = rsum np (fun i => crs n (g i) a).
Proof.
  unfold crs. destruct a as [|[|a]]; rewrite <- !rsum_scal, <- rsum_minus; reflexivity.
Qed.
Lemma double_crs n a g q : q < 3 -> crs n (crs a g) q = (a q * dot n g - g q * dot n a)%R.
Proof. intros Hq. unfold crs, dot. destruct q as [|[|[|q]]]; [ring|ring|ring|lia]. Qed.
Lemma dot_rsum np n (l : nat -> R) (p : nat -> nat -> R) :
  dot n (fun a => rsum np (fun i => l i * p i a)%R) = rsum np (fun i => l i * dot n (p i))%R.
Proof.
  unfold dot. rewrite <- !rsum_scal, <- !rsum_plus. apply rsum_ext. intros; ring.
Qed.
Lemma cop_moment np p n h f c q : (forall i, i < np -> dot n (p i) = h) -> dot n c = h -> q < 3 ->
  crs n (moment_at np p f c) q =
  (rsum np (fun i => dot n (at_point f i) * p i q) - c q * total_normal np n f)%R.
Proof.
  intros Hp Hc Hq. unfold moment_at. rewrite (rsum_crs np n (fun i => crs (fun b => p i b - c b)%R (at_point f i)) q).
  unfold total_normal. rewrite <- rsum_scal, <- rsum_minus. apply rsum_ext. intros i Hi.
  rewrite double_crs by exact Hq.
  assert (E : dot n (fun b => p i b - c b)%R = 0%R).
  { transitivity (dot n (p i) - dot n c)%R; [unfold dot; ring|]. rewrite Hp, Hc by exact Hi. ring. }
  rewrite E. ring.
Qed.
Theorem cop_hull np p n h f : (forall i, i < np -> dot n (p i) = h) ->
  (forall i, i < np -> (0 <= dot n (at_point f i))%R) -> (0 < total_normal np n f)%R ->
  (exists c, centre_of_pressure np p n h f c) /\ forall c, centre_of_pressure np p n h f c -> in_hull np p c.
Proof.
  intros Hp Hf Ht. set (N := total_normal np n f) in *.
  set (l := fun i => (dot n (at_point f i) / N)%R).
  assert (L1 : rsum np l = 1%R).
  { unfold l, Rdiv. rewrite (rsum_scal_r np (/ N) (fun i => dot n (at_point f i))). fold (total_normal np n f). fold N. exact (Rinv_r N ltac:(lra)). }
  assert (L2 : forall q, rsum np (fun i => dot n (at_point f i) * p i q)%R = (N * rsum np (fun i => l i * p i q))%R).
  { intros q. rewrite <- rsum_scal. apply rsum_ext. intros i Hi. unfold l. field. lra. }
  split.
  - exists (fun a => rsum np (fun i => l i * p i a)%R).
    assert (D : dot n (fun a => rsum np (fun i => l i * p i a)%R) = h).
    { rewrite dot_rsum. rewrite (rsum_ext np _ (fun i => l i * h)%R) by (intros i Hi; rewrite Hp by exact Hi; reflexivity).
      rewrite rsum_scal_r, L1. ring. }
    split; [exact D|]. intros q Hq. rewrite (cop_moment np p n h f _ q Hp D Hq), L2. fold N. ring.
  - intros c [D M]. exists l. split; [|split; [exact L1|]].
    + intros i Hi. unfold l. apply Rmult_le_pos; [apply Hf; exact Hi|]. apply Rlt_le, Rinv_0_lt_compat. exact Ht.
    + intros a Ha. specialize (M a Ha). rewrite (cop_moment np p n h f c a Hp D Ha), L2 in M. fold N in M.
      apply (Rmult_eq_reg_l N); [|lra]. lra.
Qed.
Theorem contact_cop k dbg name (s : rcont) h f : k <> K2 -> made_valid rsq k dbg name s ->
  (forall i, i < npts k -> dot (vget (k_n s)) (fun a => mget (k_pts s) a i) = h) -> sat (k_ineq s) f ->
  (exists c, centre_of_pressure (npts k) (fun i a => mget (k_pts s) a i) (vget (k_n s)) h f c) /\
  forall c, centre_of_pressure (npts k) (fun i a => mget (k_pts s) a i) (vget (k_n s)) h f c ->
    in_hull (npts k) (fun i a => mget (k_pts s) a i) c.
Proof.
  intros Hk Hm Hp Hs. pose proof (made_positive _ k dbg name s Hk Hm) as (P1 & P2 & P3).
  apply Rltb_true in P1. apply Rltb_true in P3. cbn [Rnum n0] in P1, P3.
  destruct (made_current _ k dbg name s (valid_made _ k dbg name s Hm)) as [C _].
  apply (current_sat k s f Hk C) in Hs. apply ineq_meaning in Hs as [A B]; [|exact Hk].
  apply cop_hull; [exact Hp| |].
  - intros i Hi. eapply pyramid_normal; [exact P3|]. exact (A i Hi).
  - lra.
Qed.

(** Virtual power of the point forces of a 6d contact. *)
Theorem virtual_power dbg name (s : rcont) : made rsq K6 dbg name s -> forall f lin an : nat -> R,
  rsum 6 (fun r => rsum 12 (fun c => mget (k_gen s) r c * f c) * (if r <? 3 then lin r else an (r - 3)%nat))%R =
  rsum 4 (fun i => dot (at_point f i) (fun a => lin a + crs an (fun b => mget (k_pts s) b i) a))%R.
Proof.
  intros Hm f lin an. destruct (generator_meaning K6 dbg name s Hm) as (_ & _ & G).   rewrite (rsum_ext 6 _ (fun r => wrench true (k_pts s) f r * (if r <? 3 then lin r else an (r - 3)%nat))%R) by (intros r Hr; f_equal; exact (G f r Hr)).
  unfold wrench, resultant, moment, dot, crs. cbn [is_six]. rewrite !rsum_S, !rsum_0. cbn [Nat.ltb Nat.leb Nat.sub].
  unfold rsum. cbn [nsum]. cbn [Rnum nadd n0 car]. ring.
Qed.
