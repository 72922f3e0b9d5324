(** The QP data do not depend on what the solver object solved before. *)
From Coq Require Import List Arith Bool Lia.
From Verif Require Import Scalar Outcome Linalg Constraint Solvers SolverSpec SolverSizes.
Import ListNotations.
Open Scope nat_scope.

Section Hist.
Context {K : num}.
Implicit Types (s : sst K) (c : constr K) (P : hqpdata K).

Definition magree i (M1 M2 : mat K) := forall k j, k < i -> mget M1 k j = mget M2 k j.
Definition vagree i (v1 v2 : vec K) := forall k, k < i -> vget v1 k = vget v2 k.
Definition agree b s1 s2 ie ii : Prop :=
  magree ii (q_CI s1) (q_CI s2) /\ vagree ii (q_cil s1) (q_cil s2) /\
  match b with
  | Eiq | Fast | Rt _ _ _ => magree ie (q_CE s1) (q_CE s2) /\ vagree ie (q_ce0 s1) (q_ce0 s2)
  | Prox => magree ie (q_CE s1) (q_CE s2) /\ vagree ie (q_ce0 s1) (q_ce0 s2) /\ vagree ii (q_ciu s1) (q_ciu s2)
  | Osqp => vagree ii (q_ciu s1) (q_ciu s2)
  | Qpmad => vagree ii (q_ciu s1) (q_ciu s2) /\
             (forall i, vget (q_lb s1) i = vget (q_lb s2) i) /\ (forall i, vget (q_ub s1) i = vget (q_ub s2) i)
             \/ vagree ii (q_ciu s1) (q_ciu s2) /\ q_hasb s1 = false
  end.

Lemma put_agree (M1 M2 : mat K) v1 v2 i r A a M1' v1' M2' v2' :
  put_spec M1 v1 i r A a M1' v1' -> put_spec M2 v2 i r A a M2' v2' -> magree i M1 M2 -> vagree i v1 v2 ->
  magree (i + r) M1' M2' /\ vagree (i + r) v1' v2'.
Proof.
  intros [A1 B1] [A2 B2] Hm Hv.
  apply mset_rows_inv in A1 as (_ & _ & _ & _ & _ & A1 & A1'). apply mset_rows_inv in A2 as (_ & _ & _ & _ & _ & A2 & A2').
  apply vset_seg_inv in B1 as (_ & _ & _ & B1 & B1'). apply vset_seg_inv in B2 as (_ & _ & _ & B2 & B2').
  split.
  - intros k j Hk. destruct (le_lt_dec i k); [rewrite A1, A2 by lia; reflexivity|].
    rewrite A1', A2' by lia. apply Hm; assumption.
  - intros k Hk. destruct (le_lt_dec i k); [rewrite B1, B2 by lia; reflexivity|].
    rewrite B1', B2' by lia. apply Hv; assumption.
Qed.
Lemma put_same (M1 M2 : mat K) v1 v2 i r A a x : put M1 v1 i r A a = Some x ->
  mrows M2 = mrows M1 -> mcols M2 = mcols M1 -> vlen v2 = vlen v1 -> exists M2' v2', put M2 v2 i r A a = Some (M2', v2').
Proof.
  destruct x as [M1' v1']. unfold put, mset_rows, vset_seg. intros H R C V. rewrite R, C, V.
  destruct (_ && _ && _); [cbn [obind] in *|discriminate]. destruct (_ && _); [cbn [obind] in *|discriminate].
  do 2 eexists; reflexivity.
Qed.
Lemma put2_same (M1 M2 : mat K) v1 v2 u1 u2 i r A a b x : put2 M1 v1 u1 i r A a b = Some x ->
  mrows M2 = mrows M1 -> mcols M2 = mcols M1 -> vlen v2 = vlen v1 -> vlen u2 = vlen u1 ->
  exists M2' v2' u2', put2 M2 v2 u2 i r A a b = Some (M2', v2', u2').
Proof.
  unfold put2, mset_rows, vset_seg. intros H R C V U. rewrite R, C, V, U.
  destruct (_ && _ && _); [cbn [obind] in *|discriminate].
  destruct ((i + r <=? vlen v1) && _); [cbn [obind] in *|discriminate].
  destruct ((i + r <=? vlen u1) && _); [cbn [obind] in *|discriminate].
  do 3 eexists; reflexivity.
Qed.


Ltac prods := repeat match goal with p : (_ * _)%type |- _ => destruct p end.
Ltac dims_eq D := unfold dims in D; injection D as Dn De Di De1 De2 De3 Di1 Di2 Di3 Di4 Dh1 Dh2 Dg Dl Du.
Ltac fields := cbn [w_eq w_in w_bnd q_n q_neq q_nin q_CE q_ce0 q_CI q_cil q_ciu q_H q_g q_hasb q_lb q_ub] in *.
Ltac one_put E1 E2 := apply put_inv in E1; apply put_inv in E2;
  let Hm := fresh "Hm" in let Hv := fresh "Hv" in
  destruct (put_agree _ _ _ _ _ _ _ _ _ _ _ _ E1 E2) as [Hm Hv]; [assumption|assumption|].
Ltac two_put E1 E2 := apply put2_inv in E1; apply put2_inv in E2;
  let A1 := fresh in let B1 := fresh in let A2 := fresh in let B2 := fresh in
  let Hm := fresh "Hm" in let Hv := fresh "Hv" in let Hu := fresh "Hu" in
  destruct E1 as [A1 B1]; destruct E2 as [A2 B2];
  destruct (put_agree _ _ _ _ _ _ _ _ _ _ _ _ A1 A2) as [Hm Hv]; [assumption|assumption|];
  destruct (put_agree _ _ _ _ _ _ _ _ _ _ _ _ B1 B2) as [_ Hu]; [assumption|assumption|].
Ltac fin H1 H2 := injection H1 as <- <- <-; injection H2 as <- <- <-; fields.

Lemma fill_one_agree b s1 s2 ie ii w c s1' s2' ie1 ii1 ie2 ii2 : match b with Eiq | Fast | Rt _ _ _ => True | _ => False end ->
  fill_one (s1, ie, ii) (w, c) = Some (s1', ie1, ii1) -> fill_one (s2, ie, ii) (w, c) = Some (s2', ie2, ii2) ->
  q_n s1 = q_n s2 /\ mcols (q_CI s1) = mcols (q_CI s2) -> agree b s1 s2 ie ii -> agree b s1' s2' ie1 ii1.
Proof.
  intros Hb H1 H2 [Dn Di2] A. unfold fill_one in *. cbn [snd] in H1, H2.
  assert (A' : magree ii (q_CI s1) (q_CI s2) /\ vagree ii (q_cil s1) (q_cil s2) /\
               magree ie (q_CE s1) (q_CE s2) /\ vagree ie (q_ce0 s1) (q_ce0 s2)) by (destruct b; try contradiction; exact A).
  clear A. destruct A' as (A1 & A2 & A3 & A4).
  cut (magree ii1 (q_CI s1') (q_CI s2') /\ vagree ii1 (q_cil s1') (q_cil s2') /\
       magree ie1 (q_CE s1') (q_CE s2') /\ vagree ie1 (q_ce0 s1') (q_ce0 s2')).
  { destruct b; try contradiction; exact (fun H => H). }
  destruct (crows c) as [r|]; [cbn [obind] in H1, H2|discriminate]. destruct (c_kind c).
  - obi H1; obi H2. prods. fin H1 H2. one_put E E0. auto.
  - obi H1; obi H2. prods. cbn beta iota in H1, H2. obi H1; obi H2. prods. fin H1 H2. one_put E E0. one_put E1 E2. auto.
  - rewrite Di2, Dn in H1. obi H1; obi H2. prods. cbn beta iota in H1, H2. obi H1; obi H2. prods. fin H1 H2.
    one_put E E0. one_put E1 E2. auto.
Qed.
Lemma fill_prox_agree s1 s2 ie ii w c s1' s2' ie1 ii1 ie2 ii2 :
  fill_prox (s1, ie, ii) (w, c) = Some (s1', ie1, ii1) -> fill_prox (s2, ie, ii) (w, c) = Some (s2', ie2, ii2) ->
  q_n s1 = q_n s2 /\ mcols (q_CI s1) = mcols (q_CI s2) -> agree Prox s1 s2 ie ii -> agree Prox s1' s2' ie1 ii1.
Proof.
  intros H1 H2 [Dn Di2] A. unfold fill_prox in *. cbn [snd] in H1, H2.
  unfold agree in *. destruct A as (A1 & A2 & A3 & A4 & A5).
  destruct (crows c) as [r|]; [cbn [obind] in H1, H2|discriminate]. destruct (c_kind c).
  - obi H1; obi H2. prods. fin H1 H2. one_put E E0. auto.
  - obi H1; obi H2. prods. fin H1 H2. two_put E E0. auto.
  - rewrite Di2 in H1. obi H1; obi H2. prods. fin H1 H2. two_put E E0. auto.
Qed.
Lemma fill_osqp_agree s1 s2 ie ii w c s1' s2' ie1 ii1 ie2 ii2 :
  fill_osqp (s1, ie, ii) (w, c) = Some (s1', ie1, ii1) -> fill_osqp (s2, ie, ii) (w, c) = Some (s2', ie2, ii2) ->
  q_n s1 = q_n s2 /\ mcols (q_CI s1) = mcols (q_CI s2) -> agree Osqp s1 s2 ie ii -> agree Osqp s1' s2' ie1 ii1.
Proof.
  intros H1 H2 [Dn Di2] A. unfold fill_osqp in *. cbn [snd] in H1, H2.
  unfold agree in *. destruct A as (A1 & A2 & A3).
  destruct (crows c) as [r|]; [cbn [obind] in H1, H2|discriminate]. destruct (c_kind c).
  - obi H1; obi H2. prods. fin H1 H2. two_put E E0. auto.
  - obi H1; obi H2. prods. fin H1 H2. two_put E E0. auto.
  - rewrite Di2 in H1. obi H1; obi H2. prods. fin H1 H2. two_put E E0. auto.
Qed.
Lemma fill_qpmad_agree s1 s2 ie ii w c s1' s2' ie1 ii1 ie2 ii2 :
  fill_qpmad (s1, ie, ii) (w, c) = Some (s1', ie1, ii1) -> fill_qpmad (s2, ie, ii) (w, c) = Some (s2', ie2, ii2) ->
  q_n s1 = q_n s2 /\ mcols (q_CI s1) = mcols (q_CI s2) -> agree Qpmad s1 s2 ie ii -> agree Qpmad s1' s2' ie1 ii1.
Proof.
  intros H1 H2 [Dn Di2] A. unfold fill_qpmad in *. cbn [snd] in H1, H2.
  unfold agree in *. destruct A as (A1 & A2 & A3).
  assert (A4 : vagree ii (q_ciu s1) (q_ciu s2)) by tauto.
  assert (A5 : (forall i, vget (q_lb s1) i = vget (q_lb s2) i) /\ (forall i, vget (q_ub s1) i = vget (q_ub s2) i) \/ q_hasb s1 = false) by tauto.
  clear A3. destruct (crows c) as [r|]; [cbn [obind] in H1, H2|discriminate]. destruct (c_kind c).
  - obi H1; obi H2. prods. fin H1 H2. two_put E E0. tauto.
  - obi H1; obi H2. prods. fin H1 H2. two_put E E0. tauto.
  - obi H1; obi H2. obi H1; obi H2. fin H1 H2.
    apply vmax_inv in E as (_ & _ & X1). apply vmax_inv in E0 as (_ & _ & X2).
    apply vmin_inv in E1 as (_ & _ & Y1). apply vmin_inv in E2 as (_ & _ & Y2).
    split; [exact A1|split; [exact A2|]]. destruct A5 as [[L U]|A5]; [left|right; auto].
    split; [exact A4|]. split; intros i; [rewrite X1, X2, L|rewrite Y1, Y2, U]; reflexivity.
Qed.
Lemma fill_agree b s1 s2 ie ii w c s1' s2' ie1 ii1 ie2 ii2 :
  fill b (s1, ie, ii) (w, c) = Some (s1', ie1, ii1) -> fill b (s2, ie, ii) (w, c) = Some (s2', ie2, ii2) ->
  q_n s1 = q_n s2 /\ mcols (q_CI s1) = mcols (q_CI s2) -> agree b s1 s2 ie ii -> agree b s1' s2' ie1 ii1.
Proof.
  destruct b; cbn [fill]; intros H1 H2 D A.
  1,2,3: eapply fill_one_agree; try exact A; eauto; exact I.
  - eapply fill_prox_agree; eauto.
  - eapply fill_osqp_agree; eauto.
  - eapply fill_qpmad_agree; eauto.
Qed.
Lemma fills_agree b l : forall s1 s2 ie ii s1' s2' ie1 ii1 ie2 ii2,
  ofold (fill b) l (s1, ie, ii) = Some (s1', ie1, ii1) -> ofold (fill b) l (s2, ie, ii) = Some (s2', ie2, ii2) ->
  q_n s1 = q_n s2 /\ mcols (q_CI s1) = mcols (q_CI s2) -> agree b s1 s2 ie ii -> agree b s1' s2' ie1 ii1.
Proof.
  induction l as [|[w c] l IH]; intros s1 s2 ie ii s1' s2' ie1 ii1 ie2 ii2 H1 H2 D A; cbn [ofold] in *.
  - injection H1 as <- <- <-. injection H2 as <- <- <-. exact A.
  - destruct (fill b (s1, ie, ii) (w, c)) as [[[u1 a1] b1]|] eqn:E1; [|discriminate].
    destruct (fill b (s2, ie, ii) (w, c)) as [[[u2 a2] b2]|] eqn:E2; [|discriminate].
    pose proof (fill_agree _ _ _ _ _ _ _ _ _ _ _ _ _ E1 E2 D A) as A'.
    destruct (fill_next _ _ _ _ _ _ _ _ _ E1) as [-> ->]. destruct (fill_next _ _ _ _ _ _ _ _ _ E2) as [-> ->].
    eapply (IH u1 u2); eauto.
    destruct (fill_dims _ _ _ _ _ _ _ _ E1) as [D1 _]. destruct (fill_dims _ _ _ _ _ _ _ _ E2) as [D2 _].
    unfold dims in D1, D2. injection D1 as ? ? ? ? ? ? ? ? ? ? ? ? ? ? ?. injection D2 as ? ? ? ? ? ? ? ? ? ? ? ? ? ? ?.
    destruct D. split; congruence.
Qed.

Lemma fills_bound (l : level K) n : forall s ie ii s' ie' ii', lwf n l -> has_bound l ->
  ofold (fill Qpmad) l (s, ie, ii) = Some (s', ie', ii') -> n = vlen (q_lb s').
Proof.
  induction l as [|[w c] l IH]; intros s ie ii s' ie' ii' W (w0 & c0 & Hin & Hk) H; [destruct Hin|].
  cbn [ofold] in H. destruct (fill Qpmad (s, ie, ii) (w, c)) as [[[s1 ie1] ii1]|] eqn:E; [|discriminate].
  destruct Hin as [Heq|Hin].
  - injection Heq as <- <-. destruct (fills_dims _ _ _ _ _ _ _ _ H) as [D _]. unfold dims in D.
    injection D as _ _ _ _ _ _ _ _ _ _ _ _ _ -> _.
    assert (Wc : cwf n c) by (apply (W w); left; reflexivity). unfold cwf in Wc. rewrite Hk in Wc.
    cbn [fill] in E. unfold fill_qpmad in E. cbn [snd] in E. obi E. rewrite Hk in E. obi E. obi E. injection E as <- _ _.
    apply vmax_inv in E1 as (A1 & A2 & _). cbn [w_bnd q_lb]. intuition congruence.
  - eapply (IH s1); eauto; [|exists w0, c0; auto]. intros w' c' Hin'. apply (W w'). right; exact Hin'.
Qed.

(** What the external solver sees of the constraints. *)
Definition same_cons b s1 s2 : Prop :=
  match b with
  | Eiq | Fast | Rt _ _ _ => meq (q_CE s1) (q_CE s2) /\ veq (q_ce0 s1) (q_ce0 s2) /\
                             meq (q_CI s1) (q_CI s2) /\ veq (q_cil s1) (q_cil s2)
  | Prox => meq (q_CE s1) (q_CE s2) /\ veq (q_ce0 s1) (q_ce0 s2) /\
            meq (q_CI s1) (q_CI s2) /\ veq (q_cil s1) (q_cil s2) /\ veq (q_ciu s1) (q_ciu s2)
  | Osqp => meq (q_CI s1) (q_CI s2) /\ veq (q_cil s1) (q_cil s2) /\ veq (q_ciu s1) (q_ciu s2)
  | Qpmad => meq (q_CI s1) (q_CI s2) /\ veq (q_cil s1) (q_cil s2) /\ veq (q_ciu s1) (q_ciu s2) /\
             q_hasb s1 = q_hasb s2 /\
             (q_hasb s1 = true -> veq (q_lb s1) (q_lb s2) /\ veq (q_ub s1) (q_ub s2))
  end.
Lemma meq_of (A B : mat K) i : mrows A = mrows B -> mcols A = mcols B -> mrows A <= i -> magree i A B -> meq A B.
Proof. intros H1 H2 H3 H. split; [exact H1|split; [exact H2|]]. intros a b' Ha _. apply H. lia. Qed.
Lemma veq_of (A B : vec K) i : vlen A = vlen B -> vlen A <= i -> vagree i A B -> veq A B.
Proof. intros H1 H3 H. split; [exact H1|]. intros a Ha. apply H. lia. Qed.

(** The rows the problem fills are all the rows the solver has. *)
Definition full b s (l : level K) : Prop :=
  match b with
  | Osqp | Qpmad => mrows (q_CI s) = use_i b l
  | _ => mrows (q_CE s) = use_e b l /\ mrows (q_CI s) = use_i b l
  end.
Lemma agree_same b s1 s2 (l : level K) : sized b s1 -> sized b s2 ->
  q_n s1 = q_n s2 -> q_neq s1 = q_neq s2 -> q_nin s1 = q_nin s2 ->
  (b = Qpmad -> q_hasb s1 = q_hasb s2 /\ (q_hasb s1 = true -> vlen (q_lb s1) = vlen (q_lb s2))) -> full b s1 l ->
  agree b s1 s2 (use_e b l) (use_i b l) -> same_cons b s1 s2.
Proof.
  intros S1 S2 Dn De Di HB F A. unfold agree, same_cons, sized, full in *.
  destruct b.
  1,2,3: destruct A as (A1 & A2 & A3 & A4); (split; [|split; [|split]]);
    [eapply meq_of; try exact A3; intuition lia|eapply veq_of; try exact A4; intuition lia|
     eapply meq_of; try exact A1; intuition lia|eapply veq_of; try exact A2; intuition lia].
  - destruct A as (A1 & A2 & A3 & A4 & A5); (split; [|split; [|split; [|split]]]);
    [eapply meq_of; try exact A3; intuition lia|eapply veq_of; try exact A4; intuition lia|
     eapply meq_of; try exact A1; intuition lia|eapply veq_of; try exact A2; intuition lia|
     eapply veq_of; try exact A5; intuition lia].
  - destruct A as (A1 & A2 & A5); (split; [|split]);
    [eapply meq_of; try exact A1; intuition lia|eapply veq_of; try exact A2; intuition lia|
     eapply veq_of; try exact A5; intuition lia].
  - destruct A as (A1 & A2 & A3). assert (A5 : vagree (use_i Qpmad l) (q_ciu s1) (q_ciu s2)) by tauto.
    split; [eapply meq_of; try exact A1; intuition lia|].
    split; [eapply veq_of; try exact A2; intuition lia|].
    split; [eapply veq_of; try exact A5; intuition lia|]. destruct (HB eq_refl) as [HB1 HB2]. split; [exact HB1|].
    intros Ht. specialize (HB2 Ht). destruct A3 as [(_ & L & U)|[_ Hf]]; [|congruence].
    split; (split; [|auto]); [exact HB2|]. intuition congruence.
Qed.

(** Level 0 from two arbitrary states of the solver. *)
Lemma level0_hist b dbg1 dbg2 jk1 jk2 s1 s2 cl0 n s1' s2' : sized b s1 -> sized b s2 -> cl0 <> [] -> lwf n cl0 -> fits b n [cl0] ->
  level0 b dbg1 jk1 s1 cl0 = Some s1' -> level0 b dbg2 jk2 s2 cl0 = Some s2' ->
  same_cons b s1' s2' /\ q_n s1' = n /\ q_n s2' = n.
Proof.
  intros S1 S2 Hne W F H1 H2. destruct cl0 as [|[w c] l]; [congruence|].
  assert (Wc : cwf n c) by (apply (W w); left; reflexivity).
  destruct (cwf_rows n c Wc) as [_ Hc]. cbn [level0 snd] in H1, H2. rewrite Hc in H1, H2; cbn [obind] in H1, H2.
  destruct (counts_ok b n _ W) as [x Hx]. rewrite Hx in H1, H2; cbn [obind] in H1, H2.
  destruct (counts_spec _ _ _ _ Hx) as [_ ->]. cbn beta iota in H1, H2.
  set (L := (w, c) :: l) in *. set (hb := match b with Qpmad => bound_in L | _ => false end) in *.
  destruct (resize b dbg1 jk1 (note_bounds b s1 hb) n (rows_if is_eq L) (rows_if (in_test b) L)) as [u1|] eqn:E1; [cbn [obind] in H1|discriminate].
  destruct (resize b dbg2 jk2 (note_bounds b s2 hb) n (rows_if is_eq L) (rows_if (in_test b) L)) as [u2|] eqn:E2; [cbn [obind] in H2|discriminate].
  assert (U1 : sized b u1) by (eapply resize_sized; [apply note_sized; exact S1|exact E1]).
  assert (U2 : sized b u2) by (eapply resize_sized; [apply note_sized; exact S2|exact E2]).
  pose proof (resize_new _ _ _ _ _ _ _ _ (note_sized b s1 hb S1) E1) as N1.
  pose proof (resize_new _ _ _ _ _ _ _ _ (note_sized b s2 hb S2) E2) as N2.
  destruct (ofold (fill b) L (reset_bounds b u1, 0, 0)) as [[[v1 a1] b1]|] eqn:G1; [cbn [obind] in H1|discriminate].
  destruct (ofold (fill b) L (reset_bounds b u2, 0, 0)) as [[[v2 a2] b2]|] eqn:G2; [cbn [obind] in H2|discriminate].
  injection H1 as <-. injection H2 as <-.
  assert (B : b = Qpmad -> q_hasb u1 = hb /\ q_hasb u2 = hb /\ q_hasb (reset_bounds b u1) = hb /\ q_hasb (reset_bounds b u2) = hb).
  { intros ->. cbn [resize note_bounds] in E1, E2. injection E1 as <-. injection E2 as <-.
    cbn [reset_bounds q_hasb w_bnd]. destruct hb; repeat split. }
  assert (Hn : q_n u1 = n /\ q_n u2 = n).
  { destruct b; try (split; [exact (proj1 N1)|exact (proj1 N2)]). cbn [fits] in F. unfold sized in U1, U2. intuition congruence. }
  assert (Hs : q_neq u1 = q_neq u2 /\ q_nin u1 = q_nin u2).
  { destruct b; cbn [fits] in *; try (unfold sized in U1, U2; intuition congruence).
    cbn [resize] in E1, E2. clear - E1 E2. injection E1 as <-. injection E2 as <-. split; reflexivity. }
  destruct (fills_dims _ _ _ _ _ _ _ _ G1) as [D1 R1]. destruct (fills_dims _ _ _ _ _ _ _ _ G2) as [D2 R2].
  rewrite reset_dims in D1, D2.
  assert (V1 : sized b v1) by (eapply dims_sized; eauto). assert (V2 : sized b v2) by (eapply dims_sized; eauto).
  destruct (fills_next _ _ _ _ _ _ _ _ G1) as [-> ->]. rewrite !Nat.add_0_l in *.
  assert (AG : agree b v1 v2 (use_e b L) (use_i b L)).
  { eapply fills_agree; [exact G1|exact G2| |].
    - pose proof (reset_dims b u1) as Q1. pose proof (reset_dims b u2) as Q2. unfold dims in Q1, Q2.
      injection Q1 as -> _ _ _ _ _ _ -> _ _ _ _ _ _ _. injection Q2 as -> _ _ _ _ _ _ -> _ _ _ _ _ _ _.
      unfold sized in U1, U2. split; [|destruct U1 as (_ & _ & _ & -> & _); destruct U2 as (_ & _ & _ & -> & _)]; intuition congruence.
    - unfold agree, magree, vagree. split; [lia|split; [lia|]]. destruct b; try (split; lia).
      + split; [lia|split; lia].
      + lia.
      + destruct (B eq_refl) as (B1 & B2 & B3 & B4). destruct hb eqn:Ehb.
        * left. split; [lia|]. cbn [reset_bounds]. rewrite B1, B2. split; reflexivity.
        * right. split; [lia|exact B3]. }
  unfold rest in R1, R2. injection R1 as _ _ RB1 _ _. injection R2 as _ _ RB2 _ _.
  unfold dims in D1, D2. injection D1 as DA DB DC _ _ _ DD _ _ _ _ _ _ DL DU. injection D2 as DA' DB' DC' _ _ _ DD' _ _ _ _ _ _ DL' DU'.
  split; [|split; intuition congruence].
  apply (agree_same b v1 v2 L); auto; try (intuition congruence).
  - intros ->. destruct (B eq_refl) as (B1 & B2 & B3 & B4). split; [congruence|]. intros Ht.
    assert (HB : has_bound L) by (apply bound_in_spec; unfold hb in *; congruence).
    rewrite <- (fills_bound L _ _ _ _ _ _ _ W HB G1). rewrite <- (fills_bound L _ _ _ _ _ _ _ W HB G2).
    reflexivity.
  - unfold full. unfold sized in V1. rewrite DA, DB, DC in V1. unfold use_e, use_i. 
    destruct b; cbn [fits in_test] in *; try (intuition lia).
Qed.

(** The cost only depends on the sizes left by level 0. *)
Lemma add_costs_hist b l : forall s1 s2 s1' s2', q_H s1 = q_H s2 -> q_g s1 = q_g s2 ->
  add_costs b s1 l = Ret s1' tt -> add_costs b s2 l = Ret s2' tt -> q_H s1' = q_H s2' /\ q_g s1' = q_g s2'.
Proof.
  induction l as [|[w c] l IH]; intros s1 s2 s1' s2' H G H1 H2; cbn [add_costs] in *.
  - injection H1 as <-. injection H2 as <-. auto.
  - destruct (c_kind c); try discriminate. unfold add_cost in *. rewrite H, G in H1.
    destruct (guard _) as [[]|]; [cbn [obind] in *|discriminate].
    eapply IH; [| |exact H1|exact H2]; reflexivity.
Qed.
Lemma level1_hist b flag s1 s2 cl1 s1' s2' : sized b s1 -> sized b s2 -> q_n s1 = q_n s2 ->
  level1 b flag s1 cl1 = Ret s1' tt -> level1 b flag s2 cl1 = Ret s2' tt -> q_H s1' = q_H s2' /\ q_g s1' = q_g s2'.
Proof.
  intros S1 S2 Hn H1 H2. unfold level1 in *.
  assert (Z : q_H (zero_cost s1) = q_H (zero_cost s2) /\ q_g (zero_cost s1) = q_g (zero_cost s2)).
  { unfold sized in *. destruct S1 as (A1 & A2 & A3 & _). destruct S2 as (B1 & B2 & B3 & _).
    cbn [zero_cost w_cost q_H q_g]. split; f_equal; congruence. }
  destruct (add_costs b (zero_cost s1) cl1) as [u1 []|u1|] eqn:E1; try discriminate.
  destruct (add_costs b (zero_cost s2) cl1) as [u2 []|u2|] eqn:E2; try discriminate.
  destruct (add_costs_hist b cl1 _ _ _ _ (proj1 Z) (proj2 Z) E1 E2) as [HH HG].
  unfold add_reg in *. destruct b; cbn [obind] in *; repeat match goal with
   | H : match obind ?e _ with _ => _ end = _ |- _ => destruct e; [cbn [obind] in H|discriminate] end;
   injection H1 as <-; injection H2 as <-; try destruct flag; cbn [w_cost q_H q_g]; rewrite ?HH, ?HG; auto.
Qed.
(** Two computations for the same problem, from arbitrary earlier calls and with
    arbitrary contents of fresh memory. *)
Theorem prepare_hist b dbg1 dbg2 jk1 jk2 s1 s2 n P flag s1' s2' :
  solver_state b dbg1 s1 -> solver_state b dbg2 s2 -> pwf n P -> fits b n P ->
  prepare b dbg1 jk1 s1 P flag = Ret s1' tt -> prepare b dbg2 jk2 s2 P flag = Ret s2' tt -> same_qp b s1' s2'.
Proof.
  intros Q1 Q2 (cl0 & cl1 & -> & Hne & W0 & W1 & Hk) F H1 H2. apply state_sized in Q1, Q2.
  cbn [prepare List.length] in H1, H2. cbn [Nat.ltb Nat.leb] in H1, H2.
  destruct (level0 b dbg1 jk1 s1 cl0) as [u1|] eqn:E1; [|discriminate].
  destruct (level0 b dbg2 jk2 s2 cl0) as [u2|] eqn:E2; [|discriminate].
  assert (F' : fits b n [cl0]) by (destruct b; auto).
  destruct (level0_hist _ _ _ _ _ _ _ _ _ _ _ Q1 Q2 Hne W0 F' E1 E2) as (SC & N1 & N2).
  pose proof (level0_sized _ _ _ _ _ _ Q1 E1) as Z1. pose proof (level0_sized _ _ _ _ _ _ Q2 E2) as Z2.
  destruct (level1_hist _ _ _ _ _ _ _ Z1 Z2 (eq_trans N1 (eq_sym N2)) H1 H2) as [HH HG].
  pose proof (level1_dims b flag u1 cl1) as D1. rewrite H1 in D1. destruct D1 as [_ D1].
  pose proof (level1_dims b flag u2 cl1) as D2. rewrite H2 in D2. destruct D2 as [_ D2].
  unfold same_qp. split; [rewrite HH; apply meq_refl|]. split; [rewrite HG; apply veq_refl|].
  rewrite D1, D2. cbn [w_cost q_CE q_ce0 q_CI q_cil q_ciu q_hasb q_lb q_ub]. exact SC.
Qed.
End Hist.
