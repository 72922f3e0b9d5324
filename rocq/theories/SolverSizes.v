(** Sizes of the solver data, acceptance of well-formed problems and independence of
    the history, for every arithmetic. *)
From Coq Require Import List Arith Bool Lia.
From Verif Require Import Scalar Outcome Linalg Constraint Solvers SolverSpec.
Import ListNotations.
Open Scope nat_scope.

Ltac obi H := match type of H with
  | obind ?e _ = Some _ => let E := fresh "E" in destruct e eqn:E; [cbn [obind] in H|discriminate H]
  end.

Section Sizes.
Context {K : num}.
Implicit Types (s : sst K) (c : constr K) (l : level K) (P : hqpdata K).

Lemma mset_rows_inv (M : mat K) i r A M' : mset_rows M i r A = Some M' ->
  i + r <= mrows M /\ mrows A = r /\ mcols A = mcols M /\ mrows M' = mrows M /\ mcols M' = mcols M /\
  (forall k j, i <= k < i + r -> mget M' k j = mget A (k - i) j) /\
  (forall k j, k < i \/ i + r <= k -> mget M' k j = mget M k j).
Proof.
  unfold mset_rows. destruct (_ && _) eqn:E; [|discriminate]. intros H; injection H as <-.
  apply andb_prop in E as [E E3]. apply andb_prop in E as [E1 E2].
  apply Nat.leb_le in E1. apply Nat.eqb_eq in E2, E3. cbn [mget mrows mcols].
  do 5 (split; [auto|]). split.
  - intros k j Hk. replace (i <=? k) with true by (symmetry; apply Nat.leb_le; lia).
    replace (k <? i + r) with true by (symmetry; apply Nat.ltb_lt; lia). reflexivity.
  - intros k j [Hk|Hk].
    + replace (i <=? k) with false by (symmetry; apply Nat.leb_gt; lia). reflexivity.
    + replace (k <? i + r) with false by (symmetry; apply Nat.ltb_ge; lia). rewrite andb_false_r. reflexivity.
Qed.
Lemma vset_seg_inv (v : vec K) i r a v' : vset_seg v i r a = Some v' ->
  i + r <= vlen v /\ vlen a = r /\ vlen v' = vlen v /\
  (forall k, i <= k < i + r -> vget v' k = vget a (k - i)) /\
  (forall k, k < i \/ i + r <= k -> vget v' k = vget v k).
Proof.
  unfold vset_seg. destruct (_ && _) eqn:E; [|discriminate]. intros H; injection H as <-.
  apply andb_prop in E as [E1 E2]. apply Nat.leb_le in E1. apply Nat.eqb_eq in E2. cbn [vget vlen].
  do 3 (split; [auto|]). split.
  - intros k Hk. replace (i <=? k) with true by (symmetry; apply Nat.leb_le; lia).
    replace (k <? i + r) with true by (symmetry; apply Nat.ltb_lt; lia). reflexivity.
  - intros k [Hk|Hk].
    + replace (i <=? k) with false by (symmetry; apply Nat.leb_gt; lia). reflexivity.
    + replace (k <? i + r) with false by (symmetry; apply Nat.ltb_ge; lia). rewrite andb_false_r. reflexivity.
Qed.
Lemma mset_rows_ok (M : mat K) i r A : i + r <= mrows M -> mrows A = r -> mcols A = mcols M ->
  exists M', mset_rows M i r A = Some M'.
Proof.
  intros H1 H2 H3. unfold mset_rows. apply Nat.leb_le in H1. apply Nat.eqb_eq in H2, H3.
  rewrite H1, H2, H3. eexists; reflexivity.
Qed.
Lemma vset_seg_ok (v : vec K) i r a : i + r <= vlen v -> vlen a = r -> exists v', vset_seg v i r a = Some v'.
Proof.
  intros H1 H2. unfold vset_seg. apply Nat.leb_le in H1. apply Nat.eqb_eq in H2.
  rewrite H1, H2. eexists; reflexivity.
Qed.

(** Entries of [M'] (and [v']) in rows [i, i+r) come from [A] (and [a]), the others
    are those of [M] (and [v]). *)
Record put_spec (M : mat K) (v : vec K) i r A a M' v' : Prop := mkPut {
  pu_m : mset_rows M i r A = Some M'; pu_v : vset_seg v i r a = Some v' }.
Lemma put_inv M v i r A a M' v' : put M v i r A a = Some (M', v') -> put_spec M v i r A a M' v'.
Proof.
  unfold put. intros H. obi H. obi H. injection H as <- <-. split; assumption.
Qed.
Lemma put2_inv (M : mat K) (lo up : vec K) i r A a b (M' : mat K) (l' u' : vec K) : put2 M lo up i r A a b = Some (M', l', u') ->
  put_spec M lo i r A a M' l' /\ put_spec M up i r A b M' u'.
Proof.
  unfold put2. intros H. obi H. obi H. obi H. injection H as <- <- <-. split; split; assumption.
Qed.
Lemma put_ok (M : mat K) v i r A a : i + r <= mrows M -> mrows A = r -> mcols A = mcols M ->
  vlen v = mrows M -> vlen a = r -> exists M' v', put M v i r A a = Some (M', v').
Proof.
  intros. destruct (mset_rows_ok M i r A) as [M' E]; auto. destruct (vset_seg_ok v i r a) as [v' E']; [lia|auto|].
  exists M', v'. unfold put. rewrite E; cbn. rewrite E'. reflexivity.
Qed.
Lemma put2_ok (M : mat K) lo up i r A a b : i + r <= mrows M -> mrows A = r -> mcols A = mcols M ->
  vlen lo = mrows M -> vlen up = mrows M -> vlen a = r -> vlen b = r ->
  exists (M' : mat K) (l' u' : vec K), put2 M lo up i r A a b = Some (M', l', u').
Proof.
  intros. destruct (mset_rows_ok M i r A) as [M' E]; auto. destruct (vset_seg_ok lo i r a) as [l' E']; [lia|auto|].
  destruct (vset_seg_ok up i r b) as [u' E'']; [lia|auto|].
  exists M', l', u'. unfold put2. rewrite E; cbn. rewrite E'; cbn. rewrite E''. reflexivity.
Qed.
Lemma put_dims M v i r A a M' v' : put_spec M v i r A a M' v' ->
  mrows M' = mrows M /\ mcols M' = mcols M /\ vlen v' = vlen v /\ mrows A = r /\ mcols A = mcols M /\ vlen a = r.
Proof.
  intros [H1 H2]. apply mset_rows_inv in H1 as (? & ? & ? & ? & ? & _).
  apply vset_seg_inv in H2 as (? & ? & ? & _). auto 10.
Qed.

(** Rows of a well-formed constraint. *)
Definition nrows c := match c_kind c with CBound => vlen (c_lb c) | _ => mrows (c_mat c) end.
Lemma crows_inv c r : crows c = Some r -> r = nrows c /\
  match c_kind c with
  | CEq => vlen (c_vec c) = r
  | CIneq => vlen (c_lb c) = r /\ vlen (c_ub c) = r
  | CBound => vlen (c_lb c) = r /\ vlen (c_ub c) = r
  end.
Proof.
  unfold crows, nrows. destruct (c_kind c).
  - destruct (_ =? _) eqn:E; [|discriminate]. apply Nat.eqb_eq in E. intros H; injection H as <-. auto.
  - destruct (_ && _) eqn:E; [|discriminate]. apply andb_prop in E as [E1 E2]. apply Nat.eqb_eq in E1, E2.
    intros H; injection H as <-. auto.
  - destruct (_ =? _) eqn:E; [|discriminate]. apply Nat.eqb_eq in E. intros H; injection H as <-. auto.
Qed.
Lemma cwf_rows n c : cwf n c -> crows c = Some (nrows c) /\ ccols c = Some n.
Proof.
  unfold cwf, crows, ccols, nrows. destruct (c_kind c).
  - intros [-> H]. rewrite H, Nat.eqb_refl. auto.
  - intros (-> & H & H'). rewrite H, H', Nat.eqb_refl. auto.
  - intros [H H']. rewrite H, H', Nat.eqb_refl. auto.
Qed.
Lemma rows_cwf n c r : ccols c = Some n -> crows c = Some r -> cwf n c.
Proof.
  unfold cwf, crows, ccols. destruct (c_kind c).
  - destruct (_ =? _) eqn:E; [|discriminate]. apply Nat.eqb_eq in E. intros H _; injection H as <-. auto.
  - destruct (_ && _) eqn:E; [|discriminate]. apply andb_prop in E as [E1 E2]. apply Nat.eqb_eq in E1, E2.
    intros H _; injection H as <-. auto.
  - destruct (_ =? _) eqn:E; [|discriminate]. apply Nat.eqb_eq in E. intros H _; injection H as <-. auto.
Qed.

(** The counting loop. *)
Definition in_test (b : backend) := match b with Qpmad => is_ineq | _ => is_in end.
Definition bound_in l : bool := existsb (fun wc => match c_kind (snd wc) with CBound => true | _ => false end) l.
Lemma counts_fold b n l : forall e i h x, ofold (count1 b n) l (e, i, h) = Some x ->
  lwf n l /\ x = (e + rows_if is_eq l, i + rows_if (in_test b) l,
                  match b with Qpmad => h || bound_in l | _ => h end).
Proof.
  induction l as [|[w c] l IH]; intros e i h x H.
  - cbn in H. injection H as <-. split; [intros w c []|]. unfold rows_if; cbn.
    rewrite !Nat.add_0_r. destruct b; try reflexivity. rewrite orb_false_r. reflexivity.
  - cbn [ofold] in H. destruct (count1 b n (e, i, h) (w, c)) as [y|] eqn:E; [|discriminate].
    unfold count1 in E. cbn [snd] in E.
    destruct (ccols c) as [k|] eqn:E0; [cbn [obind] in E|discriminate].
    unfold guard in E. destruct (n =? k) eqn:En; [|discriminate].
    cbn [obind] in E. apply Nat.eqb_eq in En; subst k.
    destruct (crows c) as [r|] eqn:E1; [cbn [obind] in E|discriminate]. injection E as <-.
    pose proof (rows_cwf n c _ E0 E1) as Hc. apply crows_inv in E1 as [-> _].
    assert (HL : forall x', ofold (count1 b n) l x' = Some x -> lwf n ((w, c) :: l)).
    { intros [[e' i'] h'] Hx. apply IH in Hx as [Hx _]. intros w' c' [Heq|Hin]; [injection Heq as <- <-; exact Hc|eauto]. }
    split; [eapply HL; exact H|].
    assert (RE : forall p, rows_if p ((w, c) :: l) = (if p (c_kind c) then nrows c else 0) + rows_if p l) by reflexivity.
    assert (RB : bound_in ((w, c) :: l) = match c_kind c with CBound => true | _ => false end || bound_in l) by reflexivity.
    rewrite !RE, RB. clear RE RB HL E0.
    destruct b, (c_kind c); apply IH in H as [_ ->]; cbn [is_eq is_in is_ineq in_test orb];
      (apply f_equal2; [apply f_equal2; lia|destruct h; reflexivity]).
Qed.
Lemma counts_spec b n l x : counts b n l = Some x ->
  lwf n l /\ x = (rows_if is_eq l, rows_if (in_test b) l, match b with Qpmad => bound_in l | _ => false end).
Proof. intros H. apply counts_fold in H as [H ->]. split; [exact H|]. destruct b; reflexivity. Qed.
Lemma counts_ok b n l : lwf n l -> exists x, counts b n l = Some x.
Proof.
  unfold counts. generalize (0, 0, false).
  induction l as [|[w c] l IH]; intros a H; [eexists; reflexivity|].
  assert (Hc : cwf n c) by (apply (H w); left; reflexivity).
  apply cwf_rows in Hc as [H1 H2]. cbn [ofold]. unfold count1 at 1. destruct a as [[e i] h]. cbn [snd].
  rewrite H2; cbn [obind]. unfold guard. rewrite Nat.eqb_refl; cbn [obind]. rewrite H1; cbn [obind].
  apply IH. intros w' c' Hin. apply (H w'). right; exact Hin.
Qed.

(** Sizes are kept by the filling loop and by the cost. *)
Definition dims s := (q_n s, q_neq s, q_nin s, (mrows (q_CE s), mcols (q_CE s), vlen (q_ce0 s)),
  (mrows (q_CI s), mcols (q_CI s), vlen (q_cil s), vlen (q_ciu s)),
  (mrows (q_H s), mcols (q_H s), vlen (q_g s)), (vlen (q_lb s), vlen (q_ub s))).
Definition rest s := (q_H s, q_g s, q_hasb s, q_x s, q_status s).
Lemma dims_sized b s s' : dims s' = dims s -> sized b s -> sized b s'.
Proof.
  unfold dims. intros H. injection H as ? ? ? ? ? ? ? ? ? ? ? ? ? ? ?. unfold sized.
  destruct b; intros; repeat match goal with H : _ = _ |- _ => first [rewrite H; clear H] end; tauto || intuition congruence.
Qed.

Lemma vmax_inv (u v w : vec K) : vmax u v = Some w -> vlen v = vlen u /\ vlen w = vlen u /\ (forall i, vget w i = nmax (vget u i) (vget v i)).
Proof. unfold vmax. destruct (_ =? _) eqn:E; [|discriminate]. apply Nat.eqb_eq in E. intros H; injection H as <-; auto. Qed.
Lemma vmin_inv (u v w : vec K) : vmin u v = Some w -> vlen v = vlen u /\ vlen w = vlen u /\ (forall i, vget w i = nmin (vget u i) (vget v i)).
Proof. unfold vmin. destruct (_ =? _) eqn:E; [|discriminate]. apply Nat.eqb_eq in E. intros H; injection H as <-; auto. Qed.

Ltac puts := repeat match goal with
  | H : put _ _ _ _ _ _ = Some (_, _) |- _ => apply put_inv in H; pose proof (put_dims _ _ _ _ _ _ _ _ H) as (? & ? & ? & ? & ? & ?)
  | H : put2 _ _ _ _ _ _ _ _ = Some (_, _, _) |- _ => apply put2_inv in H; let H' := fresh in destruct H as [H H'];
       pose proof (put_dims _ _ _ _ _ _ _ _ H) as (? & ? & ? & ? & ? & ?); pose proof (put_dims _ _ _ _ _ _ _ _ H') as (_ & _ & ? & _ & _ & ?)
  end.
Ltac prods := repeat match goal with p : (_ * _)%type |- _ => destruct p end.

Lemma fill_dims b s ie ii wc s' ie' ii' : fill b (s, ie, ii) wc = Some (s', ie', ii') ->
  dims s' = dims s /\ rest s' = rest s.
Proof.
  unfold fill, fill_one, fill_prox, fill_osqp, fill_qpmad, dims, rest.
  destruct b; intros H; obi H; destruct (c_kind (snd wc)); repeat (obi H; prods; cbn beta iota in H);
    injection H as <- <- <-; puts; cbn [w_eq w_in w_bnd q_n q_neq q_nin q_CE q_ce0 q_CI q_cil q_ciu q_H q_g q_hasb q_lb q_ub q_x q_status];
    (split; [|reflexivity]);
    repeat match goal with
    | H : vmax _ _ = Some _ |- _ => apply vmax_inv in H as (? & ? & _)
    | H : vmin _ _ = Some _ |- _ => apply vmin_inv in H as (? & ? & _)
    end; congruence.
Qed.
Lemma fills_dims b l : forall s ie ii s' ie' ii', ofold (fill b) l (s, ie, ii) = Some (s', ie', ii') ->
  dims s' = dims s /\ rest s' = rest s.
Proof.
  induction l as [|wc l IH]; intros s ie ii s' ie' ii' H; cbn [ofold] in H; [injection H as <- <- <-; auto|].
  destruct (fill b (s, ie, ii) wc) as [[[s1 ie1] ii1]|] eqn:E; [|discriminate].
  apply fill_dims in E as [E E']. apply IH in H as [H H']. split; congruence.
Qed.

Lemma resize_sized b dbg jk s n neq nin s' : sized b s -> resize b dbg jk s n neq nin = Some s' -> sized b s'.
Proof.
  intros S H. unfold resize in H. destruct b.
  1,2,4,5,6: injection H as <-; unfold sized in *; cbn [q_n q_neq q_nin q_CE q_ce0 q_CI q_cil q_ciu q_H q_g q_hasb q_lb q_ub];
    destruct (n =? q_n s) eqn:En; [apply Nat.eqb_eq in En; subst n|]; cbn [negb orb andb jmat jvec mrows mcols vlen].
  11: { destruct (_ && _); [discriminate|]. injection H as <-. exact S. }
  all: try (repeat match goal with |- context[negb (?a =? ?b)] => let E := fresh in destruct (a =? b) eqn:E; cbn [negb orb]; [apply Nat.eqb_eq in E|] end;
       cbn [negb orb jmat jvec mrows mcols vlen]; intuition (try congruence; try lia)).
  destruct (q_hasb s); cbn; intuition congruence.
Qed.

Lemma add_costs_dims b l : forall s, match add_costs b s l with
  | Ret s' _ | Exc s' => dims s' = dims s /\ s' = w_cost s (q_H s') (q_g s')
  | Undef => True end.
Proof.
  induction l as [|[w c] l IH]; intros s; cbn [add_costs]; [split; [reflexivity|destruct s; reflexivity]|].
  destruct (c_kind c); [|split; [reflexivity|destruct s; reflexivity]|split; [reflexivity|destruct s; reflexivity]].
  destruct (add_cost b s w c) as [s1|] eqn:E; [|exact I]. unfold add_cost in E. obi E. injection E as <-.
  specialize (IH (w_cost s (mkMat (mrows (q_H s)) (mcols (q_H s)) (fun i j =>
     (mget (q_H s) i j + nsum (mrows (c_mat c)) (fun k => (w * mget (c_mat c) k i) * mget (c_mat c) k j))%num)) (mkVec (vlen (q_g s)) (fun i =>
     match b with
     | Eiq | Rt _ _ _ | Qpmad => (vget (q_g s) i - w * nsum (mrows (c_mat c)) (fun k => mget (c_mat c) k i * vget (c_vec c) k))%num
     | _ => (vget (q_g s) i - nsum (mrows (c_mat c)) (fun k => (w * mget (c_mat c) k i) * vget (c_vec c) k))%num
     end)))). destruct (add_costs _ _ l) as [s2 []|s2|]; auto; destruct IH as [IH IH']; (split; [rewrite IH; reflexivity|]);
    rewrite IH' at 1; reflexivity.
Qed.
Lemma add_reg_dims b flag s s' : add_reg b flag s = Some s' -> dims s' = dims s /\ s' = w_cost s (q_H s') (q_g s').
Proof.
  unfold add_reg. destruct b; intros H; try (obi H); injection H as <-; try (split; reflexivity);
    destruct flag; (split; [reflexivity|destruct s; reflexivity]).
Qed.
Lemma level1_dims b flag s cl1 : match level1 b flag s cl1 with
  | Ret s' _ | Exc s' => dims s' = dims s /\ s' = w_cost s (q_H s') (q_g s')
  | Undef => True end.
Proof.
  unfold level1. pose proof (add_costs_dims b cl1 (zero_cost s)) as H.
  destruct (add_costs b (zero_cost s) cl1) as [s1 []|s1|]; [|exact H|exact I].
  - destruct (add_reg b flag s1) as [s2|] eqn:E; [|exact I]. apply add_reg_dims in E as [E E'].
    destruct H as [H H']. split; [rewrite E, H; reflexivity|]. rewrite E', H'. reflexivity.
Qed.
Lemma note_sized b s h : sized b s -> sized b (note_bounds b s h).
Proof. destruct b; exact (fun H => H). Qed.
Lemma reset_dims b s : dims (reset_bounds b s) = dims s.
Proof. destruct b; try reflexivity. cbn. destruct (q_hasb s); reflexivity. Qed.
Lemma level0_sized b dbg jk s cl0 s' : sized b s -> level0 b dbg jk s cl0 = Some s' -> sized b s'.
Proof.
  intros S H. destruct cl0 as [|wc l]; cbn [level0] in H.
  - eapply resize_sized; [apply note_sized; exact S|exact H].
  - obi H. obi H. destruct p as [[neq nin] hb]. cbn beta iota in H. obi H. obi H. destruct p as [[s2 ie] ii].
    cbn beta iota in H. injection H as <-. apply resize_sized in E1; [|apply note_sized; exact S].
    apply fills_dims in E2 as [E2 _]. eapply dims_sized; [|exact E1]. rewrite E2. apply reset_dims.
Qed.
Lemma prepare_sized b dbg jk s P flag : sized b s -> match prepare b dbg jk s P flag with
  | Ret s' _ | Exc s' => sized b s' | Undef => True end.
Proof.
  intros S. destruct P as [|cl0 P]; cbn [prepare]; [exact I|]. destruct (2 <? _); [exact S|].
  destruct (level0 b dbg jk s cl0) as [s1|] eqn:E; [|exact I]. apply level0_sized in E; auto.
  destruct P as [|cl1 P]; [exact E|]. pose proof (level1_dims b flag s1 cl1) as H.
  destruct (level1 b flag s1 cl1) as [s2 []|s2|]; auto; destruct H as [H _]; eapply dims_sized; eauto.
Qed.
Lemma new_sized b jk hb st : sized b (@solver_new K b jk hb st).
Proof. destruct b; cbn; repeat split; reflexivity. Qed.
Lemma sstep_sized b dbg s (o : sop K b) s' : sized b s -> after (sstep b dbg s o) = Some s' -> sized b s'.
Proof.
  intros S H. destruct o as [n neq nin jk|P flag jk|P jk ans x]; cbn [sstep] in H.
  - destruct (resize b dbg jk s n neq nin) eqn:E; [|discriminate]. injection H as <-. eapply resize_sized; eauto.
  - assert (X : match retrieve b dbg jk s P flag with Ret s' _ | Exc s' => sized b s' | Undef => True end).
    { unfold retrieve. destruct b; try (apply prepare_sized; exact S). exact S. }
    destruct (retrieve b dbg jk s P flag) as [s1 []|s1|]; try discriminate; injection H as <-; exact X.
  - unfold solve in H. pose proof (prepare_sized b dbg jk s P (default_flag b) S) as X.
    destruct (prepare b dbg jk s P (default_flag b)) as [s1 []|s1|]; try discriminate; injection H as <-; exact X.
Qed.
(** Every state of a solver object, whatever was called before. *)
Definition solver_state b dbg s : Prop :=
  exists jk hb st, reach (sstep b dbg) (fun _ _ => True) (solver_new b jk hb st) s.
Lemma state_sized b dbg s : solver_state b dbg s -> sized b s.
Proof.
  intros (jk & hb & st & H). revert H. apply reach_inv; [apply new_sized|].
  intros s1 o s2 S _ A. eapply sstep_sized; eauto.
Qed.

(** Rows of CE and CI a level takes up. *)
Definition use_e b l := match b with Osqp | Qpmad => 0 | _ => rows_if is_eq l end.
Definition use_i b l := match b with
  | Osqp => rows_if is_eq l + rows_if is_in l | Qpmad => rows_if is_eq l + rows_if is_ineq l
  | Prox => rows_if is_in l | _ => 2 * rows_if is_in l end.
Definition one_e b c := match b, c_kind c with Osqp, _ | Qpmad, _ => 0 | _, CEq => nrows c | _, _ => 0 end.
Definition one_i b c := match b, c_kind c with
  | Osqp, _ => nrows c | Qpmad, CBound => 0 | Qpmad, _ => nrows c
  | _, CEq => 0 | Prox, _ => nrows c | _, _ => 2 * nrows c end.
Lemma rows_if_cons p w c l : rows_if p ((w, c) :: l) = (if p (c_kind c) then nrows c else 0) + rows_if p l.
Proof. reflexivity. Qed.
Lemma use_cons b w c l : use_e b ((w, c) :: l) = one_e b c + use_e b l /\ use_i b ((w, c) :: l) = one_i b c + use_i b l.
Proof.
  unfold use_e, use_i, one_e, one_i. rewrite !rows_if_cons.
  destruct b; destruct (c_kind c); cbn [is_eq is_in is_ineq]; lia.
Qed.

(** Column counts and lengths before the filling loop. *)
Definition ready b n s : Prop :=
  q_n s = n /\ mcols (q_CI s) = n /\ vlen (q_cil s) = mrows (q_CI s) /\
  match b with
  | Osqp => vlen (q_ciu s) = mrows (q_CI s)
  | Qpmad => vlen (q_ciu s) = mrows (q_CI s)
  | Prox => mcols (q_CE s) = n /\ vlen (q_ce0 s) = mrows (q_CE s) /\ vlen (q_ciu s) = mrows (q_CI s)
  | _ => mcols (q_CE s) = n /\ vlen (q_ce0 s) = mrows (q_CE s)
  end.
Lemma dims_ready b n s s' : dims s' = dims s -> ready b n s -> ready b n s'.
Proof.
  unfold dims, ready. intros H. injection H as ? ? ? ? ? ? ? ? ? ? ? ? ? ? ?.
  destruct b; intuition congruence.
Qed.
Lemma sized_ready b s : sized b s -> ready b (q_n s) s.
Proof. unfold sized, ready. destruct b; intuition congruence. Qed.

Definition room b s i := match b with Osqp | Qpmad => True | _ => i <= mrows (q_CE s) end.
Lemma fill_ok b n s ie ii w c : ready b n s -> cwf n c ->
  room b s (ie + one_e b c) -> ii + one_i b c <= mrows (q_CI s) ->
  (b = Qpmad -> c_kind c = CBound -> vlen (q_lb s) = n /\ vlen (q_ub s) = n) ->
  exists s', fill b (s, ie, ii) (w, c) = Some (s', ie + one_e b c, ii + one_i b c).
Proof.
  intros (Hn & Hci & Hcil & R) W He Hi Hb. destruct (cwf_rows n c W) as [Hr _].
  unfold cwf in W. unfold fill, one_e, one_i, room in *. unfold nrows in *.
  destruct b; unfold fill_one, fill_prox, fill_osqp, fill_qpmad; cbn [snd]; rewrite Hr; cbn [obind];
    destruct (c_kind c) eqn:Ek.
  (* eiq, fast, rt *)
  1,4,7: destruct W as [W1 W2]; destruct R as [R1 R2];
    destruct (put_ok (q_CE s) (q_ce0 s) ie (mrows (c_mat c)) (c_mat c) (vopp (c_vec c))) as (M & v & E);
    [lia|reflexivity|congruence|exact R2|exact W2|];
    rewrite E; cbn [obind]; eexists; rewrite Nat.add_0_r; reflexivity.
  1,3,5: destruct W as (W1 & W2 & W3);
    destruct (put_ok (q_CI s) (q_cil s) ii (mrows (c_mat c)) (c_mat c) (vopp (c_lb c))) as (M & v & E);
    [lia|reflexivity|congruence|exact Hcil|exact W2|];
    rewrite E; cbn [obind]; apply put_inv in E; destruct (put_dims _ _ _ _ _ _ _ _ E) as (D1 & D2 & D3 & _);
    destruct (put_ok M v (ii + mrows (c_mat c)) (mrows (c_mat c)) (mopp (c_mat c)) (c_ub c)) as (M' & v' & E');
    [lia|reflexivity|cbn; congruence|congruence|exact W3|];
    rewrite E'; cbn [obind]; eexists; rewrite Nat.add_0_r;
    replace (ii + 2 * mrows (c_mat c)) with (ii + mrows (c_mat c) + mrows (c_mat c)) by lia; reflexivity.
  1,2,3: destruct W as (W2 & W3);
    destruct (put_ok (q_CI s) (q_cil s) ii (vlen (c_lb c)) (mident (vlen (c_lb c)) (mcols (q_CI s))) (vopp (c_lb c))) as (M & v & E);
    [lia|reflexivity|reflexivity|exact Hcil|reflexivity|];
    rewrite E; cbn [obind]; apply put_inv in E; destruct (put_dims _ _ _ _ _ _ _ _ E) as (D1 & D2 & D3 & _);
    destruct (put_ok M v (ii + vlen (c_lb c)) (vlen (c_lb c)) (mopp (mident (q_n s) (q_n s))) (c_ub c)) as (M' & v' & E');
    [lia|cbn; congruence|cbn; congruence|congruence|congruence|];
    rewrite E'; cbn [obind]; eexists; rewrite Nat.add_0_r;
    replace (ii + 2 * vlen (c_lb c)) with (ii + vlen (c_lb c) + vlen (c_lb c)) by lia; reflexivity.
  (* prox *)
  { destruct W as [W1 W2]; destruct R as (R1 & R2 & R3).
    destruct (put_ok (q_CE s) (q_ce0 s) ie (mrows (c_mat c)) (c_mat c) (c_vec c)) as (M & v & E);
    [lia|reflexivity|congruence|exact R2|exact W2|].
    rewrite E; cbn [obind]; eexists; rewrite Nat.add_0_r; reflexivity. }
  { destruct W as (W1 & W2 & W3); destruct R as (R1 & R2 & R3).
    destruct (put2_ok (q_CI s) (q_cil s) (q_ciu s) ii (mrows (c_mat c)) (c_mat c) (c_lb c) (c_ub c)) as (M & v & u & E);
    [lia|reflexivity|congruence|exact Hcil|exact R3|exact W2|exact W3|].
    rewrite E; cbn [obind]; eexists; rewrite Nat.add_0_r; reflexivity. }
  { destruct W as (W2 & W3); destruct R as (R1 & R2 & R3).
    destruct (put2_ok (q_CI s) (q_cil s) (q_ciu s) ii (vlen (c_lb c)) (mident (vlen (c_lb c)) (mcols (q_CI s))) (c_lb c) (c_ub c)) as (M & v & u & E);
    [lia|reflexivity|reflexivity|exact Hcil|exact R3|reflexivity|congruence|].
    rewrite E; cbn [obind]; eexists; rewrite Nat.add_0_r; reflexivity. }
  (* osqp, qpmad *)
  1,4: destruct W as [W1 W2];
    destruct (put2_ok (q_CI s) (q_cil s) (q_ciu s) ii (mrows (c_mat c)) (c_mat c) (c_vec c) (c_vec c)) as (M & v & u & E);
    [lia|reflexivity|congruence|exact Hcil|exact R|exact W2|exact W2|];
    rewrite E; cbn [obind]; eexists; rewrite Nat.add_0_r; reflexivity.
  1,3: destruct W as (W1 & W2 & W3);
    destruct (put2_ok (q_CI s) (q_cil s) (q_ciu s) ii (mrows (c_mat c)) (c_mat c) (c_lb c) (c_ub c)) as (M & v & u & E);
    [lia|reflexivity|congruence|exact Hcil|exact R|exact W2|exact W3|];
    rewrite E; cbn [obind]; eexists; rewrite Nat.add_0_r; reflexivity.
  - destruct W as (W2 & W3).
    destruct (put2_ok (q_CI s) (q_cil s) (q_ciu s) ii (vlen (c_lb c)) (mident (vlen (c_lb c)) (mcols (q_CI s))) (c_lb c) (c_ub c)) as (M & v & u & E);
    [lia|reflexivity|reflexivity|exact Hcil|exact R|reflexivity|congruence|].
    rewrite E; cbn [obind]; eexists; rewrite Nat.add_0_r; reflexivity.
  - destruct W as (W2 & W3). destruct (Hb eq_refl eq_refl) as [B1 B2].
    unfold vmax, vmin. rewrite W2, W3, B1, B2, Nat.eqb_refl. cbn [obind]. eexists. rewrite !Nat.add_0_r. reflexivity.
Qed.
Lemma fill_next b s ie ii w c s' ie' ii' : fill b (s, ie, ii) (w, c) = Some (s', ie', ii') ->
  ie' = ie + one_e b c /\ ii' = ii + one_i b c.
Proof.
  unfold fill, fill_one, fill_prox, fill_osqp, fill_qpmad, one_e, one_i.
  destruct b; intros H; cbn [snd] in H; (destruct (crows c) as [r|] eqn:Er; [cbn [obind] in H|discriminate H]);
    apply crows_inv in Er as [-> _]; destruct (c_kind c); repeat (obi H; prods; cbn beta iota in H);
    injection H as <- <- <-; lia.
Qed.
Lemma fills_next b l : forall s ie ii s' ie' ii', ofold (fill b) l (s, ie, ii) = Some (s', ie', ii') ->
  ie' = ie + use_e b l /\ ii' = ii + use_i b l.
Proof.
  induction l as [|[w c] l IH]; intros s ie ii s' ie' ii' H; cbn [ofold] in H.
  - injection H as <- <- <-. unfold use_e, use_i, rows_if; cbn [fold_right]. destruct b; lia.
  - destruct (fill b (s, ie, ii) (w, c)) as [[[s1 ie1] ii1]|] eqn:E; [|discriminate].
    apply fill_next in E as [-> ->]. apply IH in H as [-> ->]. destruct (use_cons b w c l). lia.
Qed.
Lemma bound_in_spec l : bound_in l = true <-> has_bound l.
Proof.
  unfold bound_in. rewrite existsb_exists. split.
  - intros ([w c] & Hin & Hk). exists w, c. cbn in Hk. destruct (c_kind c); try discriminate. auto.
  - intros (w & c & Hin & Hk). exists (w, c). cbn. rewrite Hk. auto.
Qed.
Lemma fills_ok b n l : forall s ie ii, ready b n s -> lwf n l ->
  room b s (ie + use_e b l) -> ii + use_i b l <= mrows (q_CI s) ->
  (b = Qpmad -> has_bound l -> vlen (q_lb s) = n /\ vlen (q_ub s) = n) ->
  exists s', ofold (fill b) l (s, ie, ii) = Some (s', ie + use_e b l, ii + use_i b l).
Proof.
  induction l as [|[w c] l IH]; intros s ie ii R W He Hi Hb.
  - exists s. unfold use_e, use_i, rows_if; cbn. destruct b; rewrite !Nat.add_0_r; reflexivity.
  - destruct (use_cons b w c l) as [U1 U2]. rewrite U1, U2 in *.
    destruct (fill_ok b n s ie ii w c) as [s1 E]; auto.
    + apply (W w). left; reflexivity.
    + unfold room in *. destruct b; auto; lia.
    + lia.
    + intros Hq Hk. apply Hb; auto. exists w, c. split; [left; reflexivity|exact Hk].
    + destruct (fill_dims _ _ _ _ _ _ _ _ E) as [D _].
      assert (D' := D). unfold dims in D'. injection D' as ? ? ? ? ? ? ? ? ? ? ? ? ? ? ?.
      destruct (IH s1 (ie + one_e b c) (ii + one_i b c)) as [s2 E2].
      * eapply dims_ready; eauto.
      * intros w' c' Hin. apply (W w'). right; exact Hin.
      * unfold room in *. destruct b; auto; lia.
      * lia.
      * intros Hq (w' & c' & Hin & Hk). destruct Hb as [B1 B2]; auto; [exists w', c'; split; [right; exact Hin|exact Hk]|].
        split; congruence.
      * exists s2. cbn [ofold]. rewrite E, E2. rewrite !Nat.add_assoc. reflexivity.
Qed.

(** Sizes after resize. *)
Lemma resize_new b dbg jk s n neq nin s' : sized b s -> resize b dbg jk s n neq nin = Some s' ->
  match b with Rt nv ne ni => s' = s | Qpmad => q_n s' = n /\ q_neq s' = neq + nin | _ => q_n s' = n /\ q_neq s' = neq /\ q_nin s' = nin end.
Proof.
  intros S H. unfold resize in H. destruct b; try (injection H as <-; cbn; auto; fail).
  destruct (_ && _); [discriminate|]. injection H as <-. reflexivity.
Qed.
Lemma resize_total b dbg jk s n neq nin :
  match b with Rt nv ne ni => dbg = true -> n = nv /\ neq = ne /\ nin = ni | _ => True end ->
  exists s', resize b dbg jk s n neq nin = Some s'.
Proof.
  intros H. unfold resize. destruct b; try (eexists; reflexivity).
  destruct dbg; [|eexists; reflexivity]. destruct (H eq_refl) as (-> & -> & ->). rewrite !Nat.eqb_refl. eexists; reflexivity.
Qed.

(** qpmad only resizes its bounds when the number of variables changes. *)
Definition bounds_ready b n s l : Prop :=
  b = Qpmad -> has_bound l -> q_n s <> n \/ vlen (q_lb s) = n.

(** Level 0 of a well-formed problem is accepted. *)
Lemma level0_ok b dbg jk s n cl0 cl1 : sized b s -> cl0 <> [] -> lwf n cl0 -> fits b n [cl0; cl1] ->
  bounds_ready b n s cl0 ->
  exists s', level0 b dbg jk s cl0 = Some s' /\ sized b s' /\ q_n s' = n.
Proof.
  intros S Hne W F Hb. destruct cl0 as [|[w c] l]; [congruence|].
  assert (Wc : cwf n c) by (apply (W w); left; reflexivity).
  destruct (cwf_rows n c Wc) as [_ Hc]. cbn [level0 snd]. rewrite Hc; cbn [obind].
  destruct (counts_ok b n _ W) as [x Hx]. rewrite Hx; cbn [obind].
  destruct (counts_spec _ _ _ _ Hx) as [_ ->]. cbn beta iota.
  set (L := (w, c) :: l) in *. set (hb := match b with Qpmad => bound_in L | _ => false end).
  destruct (resize_total b dbg jk (note_bounds b s hb) n (rows_if is_eq L) (rows_if (in_test b) L)) as [s1 E1].
  { destruct b; auto. }
  rewrite E1; cbn [obind].
  assert (S1 : sized b s1) by (eapply resize_sized; [apply note_sized; exact S|exact E1]).
  assert (N1 := resize_new _ _ _ _ _ _ _ _ (note_sized b s hb S) E1).
  assert (Hn : q_n s1 = n).
  { destruct b; try exact (proj1 N1). cbn [fits] in F. unfold sized in S1. intuition congruence. }
  assert (S2 : sized b (reset_bounds b s1)) by (eapply dims_sized; [apply reset_dims|exact S1]).
  assert (R2 : ready b n (reset_bounds b s1)).
  { rewrite <- Hn. replace (q_n s1) with (q_n (reset_bounds b s1)); [apply sized_ready; exact S2|].
    pose proof (reset_dims b s1) as D. unfold dims in D. injection D as -> _. reflexivity. }
  assert (Cap : room b (reset_bounds b s1) (0 + use_e b L)).
  { unfold use_e, room. destruct b; auto; unfold sized in S1; cbn [reset_bounds fits] in *; intuition lia. }
  assert (Cai : 0 + use_i b L <= mrows (q_CI (reset_bounds b s1))).
  { unfold use_i. destruct b; unfold sized in S2; cbn [reset_bounds fits in_test] in *; try (intuition lia).
    clear S2 R2 Cap. unfold sized in S1. destruct S1 as (_ & _ & _ & _ & (S1 & _) & _). destruct N1 as [_ N1]. destruct (q_hasb s1); cbn [w_bnd q_CI]; lia. }
  destruct (fills_ok b n L (reset_bounds b s1) 0 0 R2 W Cap Cai) as [s2 E2].
  { intros Hq HB. subst b. specialize (Hb eq_refl HB). apply bound_in_spec in HB.
    assert (X : vlen (q_lb s1) = n).
    { cbn [resize] in E1. injection E1 as <-. cbn [q_lb note_bounds w_bnd q_n q_hasb]. fold L in HB. unfold hb. rewrite HB.
      destruct (n =? q_n s) eqn:En; cbn [negb andb]; [apply Nat.eqb_eq in En|reflexivity].
      destruct Hb as [Hb|Hb]; [congruence|exact Hb]. }
    unfold sized in S1. assert (Y : vlen (q_lb s1) = vlen (q_ub s1)) by intuition.
    clear - X Y. cbn [reset_bounds]. destruct (q_hasb s1); cbn [w_bnd q_lb q_ub vlen]; split; congruence. }
  rewrite E2; cbn [obind]. exists s2. split; [reflexivity|].
  destruct (fills_dims _ _ _ _ _ _ _ _ E2) as [D _].
  assert (D' : dims s2 = dims s1) by (rewrite D; apply reset_dims).
  split; [eapply dims_sized; [exact D'|exact S1]|]. unfold dims in D'. injection D' as -> _. exact Hn.
Qed.
Lemma add_costs_ok b n l : forall s, mrows (q_H s) = n -> mcols (q_H s) = n -> vlen (q_g s) = n -> lwf n l ->
  (forall w c, In (w, c) l -> c_kind c = CEq) -> exists s', add_costs b s l = Ret s' tt.
Proof.
  induction l as [|[w c] l IH]; intros s H1 H2 H3 W Hk; [eexists; reflexivity|].
  assert (Wc : cwf n c) by (apply (W w); left; reflexivity).
  assert (Kc : c_kind c = CEq) by (apply (Hk w); left; reflexivity). unfold cwf in Wc. rewrite Kc in Wc. destruct Wc as [W1 W2].
  cbn [add_costs]. rewrite Kc. unfold add_cost, guard. rewrite W1, W2, H1, H2, H3, !Nat.eqb_refl. cbn [andb obind].
  apply IH; auto.
  - intros w' c' Hin. apply (W w'). right; exact Hin.
  - intros w' c' Hin. apply (Hk w'). right; exact Hin.
Qed.
Lemma add_reg_ok b flag s : mrows (q_H s) = q_n s -> mcols (q_H s) = q_n s -> exists s', add_reg b flag s = Some s'.
Proof.
  intros H1 H2. unfold add_reg, guard. destruct b; try (eexists; reflexivity);
    rewrite H1, H2, Nat.eqb_refl; eexists; reflexivity.
Qed.
Lemma prepare_ok b dbg jk s n P flag : sized b s -> pwf n P -> fits b n P ->
  (forall cl0, nth_error P 0 = Some cl0 -> bounds_ready b n s cl0) ->
  exists s', prepare b dbg jk s P flag = Ret s' tt /\ q_n s' = n.
Proof.
  intros S (cl0 & cl1 & -> & Hne & W0 & W1 & Hk) F Hb. cbn [prepare List.length]. cbn [Nat.ltb Nat.leb].
  destruct (level0_ok b dbg jk s n cl0 cl1 S Hne W0 F) as (s1 & E & S1 & Hn).
  { apply Hb. reflexivity. }
  rewrite E. unfold level1. unfold sized in S1. destruct S1 as (A1 & A2 & A3 & _).
  destruct (add_costs_ok b n cl1 (zero_cost s1)) as [s2 E2]; cbn; try congruence; auto.
  rewrite E2. pose proof (add_costs_dims b cl1 (zero_cost s1)) as D. rewrite E2 in D. destruct D as [D _].
  unfold dims in D. cbn in D. injection D as D1 D2 D3 D4 D5 D6 D7 D8 D9 D10 D11 D12 D13 D14 D15.
  destruct (add_reg_ok b flag s2) as [s3 E3]; [congruence|congruence|]. rewrite E3. exists s3. split; [reflexivity|].
  apply add_reg_dims in E3 as [D _]. unfold dims in D. injection D as -> _. congruence.
Qed.

(** Rejected problems. *)
Lemma add_costs_throw b n l : forall s, mrows (q_H s) = n -> mcols (q_H s) = n -> vlen (q_g s) = n -> lwf n l ->
  (exists w c, In (w, c) l /\ c_kind c <> CEq) -> exists s', add_costs b s l = Exc s'.
Proof.
  induction l as [|[w c] l IH]; intros s H1 H2 H3 W (w0 & c0 & Hin & Hk); [destruct Hin|].
  cbn [add_costs]. destruct (c_kind c) eqn:Kc; try (eexists; reflexivity).
  assert (Wc : cwf n c) by (apply (W w); left; reflexivity). unfold cwf in Wc. rewrite Kc in Wc. destruct Wc as [W1 W2].
  unfold add_cost, guard. rewrite W1, W2, H1, H2, H3, !Nat.eqb_refl. cbn [andb obind].
  apply IH; auto.
  - intros w' c' Hin'. apply (W w'). right; exact Hin'.
  - destruct Hin as [Heq|Hin]; [injection Heq as <- <-; congruence|]. exists w0, c0. auto.
Qed.
Lemma prepare_throw b dbg jk s n cl0 cl1 flag : sized b s -> cl0 <> [] -> lwf n cl0 -> lwf n cl1 ->
  (exists w c, In (w, c) cl1 /\ c_kind c <> CEq) -> fits b n [cl0; cl1] -> bounds_ready b n s cl0 ->
  exists s', prepare b dbg jk s [cl0; cl1] flag = Exc s'.
Proof.
  intros S Hne W0 W1 Hk F Hb. cbn [prepare List.length]. cbn [Nat.ltb Nat.leb].
  destruct (level0_ok b dbg jk s n cl0 cl1 S Hne W0 F Hb) as (s1 & E & S1 & Hn).
  rewrite E. unfold level1. unfold sized in S1. destruct S1 as (A1 & A2 & A3 & _).
  destruct (add_costs_throw b n cl1 (zero_cost s1)) as [s2 E2]; cbn; try congruence; auto.
  rewrite E2. eexists; reflexivity.
Qed.
End Sizes.
