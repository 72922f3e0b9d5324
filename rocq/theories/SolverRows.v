(** Which row of the QP is which row of which constraint, and what multipliers of the QP say
    about the user's constraints and cost. *)
From Coq Require Import List Arith Bool Reals Lia Lra QArith Qreals.
From Verif Require Import Scalar Outcome Linalg Constraint FormSpec FormPhysSpec RSum Solvers SolverSpec SolverSizes SolverHist SolverSem SolverCost SolverMain.
Import ListNotations.
Open Scope nat_scope.
#[local] Opaque nsum.

(** ** Specification *)
(** A row [i] of constraint number [j] of level 0, as an equality, its lower or upper side
    alone, or both sides. *)
Inductive side := Exact | Lower | Upper | Range.
Definition line := (nat * nat * side)%type.
Definition lines (j n : nat) (d : side) : list line := map (fun i => (j, i, d)) (seq 0 n).
Definition rows_of (c : constr Rnum) : nat := match c_kind c with CBound => vlen (c_lb c) | _ => mrows (c_mat c) end.
(** Rows of CE: the equalities, in the order of the level. *)
Definition eq_lines1 (b : backend) (j : nat) (c : constr Rnum) : list line :=
  match b, c_kind c with
  | (Eiq | Fast | Rt _ _ _ | Prox), CEq => lines j (rows_of c) Exact
  | _, _ => []
  end.
(** Rows of CI: eiq, fast and rt take all the lower sides of a constraint, then all its upper
    sides; prox, osqp and qpmad (without the bounds) take two-sided rows. *)
Definition in_lines1 (b : backend) (j : nat) (c : constr Rnum) : list line :=
  match b, c_kind c with
  | (Eiq | Fast | Rt _ _ _), (CIneq | CBound) => lines j (rows_of c) Lower ++ lines j (rows_of c) Upper
  | Prox, (CIneq | CBound) => lines j (rows_of c) Range
  | Osqp, CEq => lines j (rows_of c) Exact
  | Osqp, _ => lines j (rows_of c) Range
  | Qpmad, CEq => lines j (rows_of c) Exact
  | Qpmad, CIneq => lines j (rows_of c) Range
  | _, _ => []
  end.
Fixpoint stack (one : nat -> constr Rnum -> list line) (j : nat) (l : level Rnum) : list line :=
  match l with [] => [] | (_, c) :: l' => one j c ++ stack one (S j) l' end.
Definition eq_lines b cl0 := stack (eq_lines1 b) 0 cl0.
Definition in_lines b cl0 := stack (in_lines1 b) 0 cl0.

(** Row [k] of the QP is the given row of the constraint. *)
Definition ce_row (b : backend) (s : sst Rnum) (k : nat) (c : constr Rnum) (i : nat) (d : side) : Prop :=
  match b, d with
  | (Eiq | Fast | Rt _ _ _), Exact => forall x, (qrow (q_CE s) x k + vget (q_ce0 s) k = lhs c x i - vget (c_vec c) i)%R
  | Prox, Exact => (forall x, qrow (q_CE s) x k = lhs c x i) /\ vget (q_ce0 s) k = vget (c_vec c) i
  | _, _ => False
  end.
Definition ci_row (b : backend) (s : sst Rnum) (k : nat) (c : constr Rnum) (i : nat) (d : side) : Prop :=
  match b, d with
  | (Eiq | Fast | Rt _ _ _), Lower => forall x, (qrow (q_CI s) x k + vget (q_cil s) k = lhs c x i - vget (c_lb c) i)%R
  | (Eiq | Fast | Rt _ _ _), Upper => forall x, (qrow (q_CI s) x k + vget (q_cil s) k = vget (c_ub c) i - lhs c x i)%R
  | (Prox | Osqp | Qpmad), Range =>
      (forall x, qrow (q_CI s) x k = lhs c x i) /\ vget (q_cil s) k = vget (c_lb c) i /\ vget (q_ciu s) k = vget (c_ub c) i
  | (Osqp | Qpmad), Exact =>
      (forall x, qrow (q_CI s) x k = lhs c x i) /\ vget (q_cil s) k = vget (c_vec c) i /\ vget (q_ciu s) k = vget (c_vec c) i
  | _, _ => False
  end.
(** [L] lists what the rows of the QP are. *)
Definition listed (cl0 : level Rnum) (rel : nat -> constr Rnum -> nat -> side -> Prop) (L : list line) : Prop :=
  forall k j i d, nth_error L k = Some (j, i, d) ->
    exists w c, nth_error cl0 j = Some (w, c) /\ i < rows_of c /\ rel k c i d.

(** ** Proof *)
Lemma lines_length j n d : length (lines j n d) = n.
Proof. unfold lines. rewrite map_length, seq_length. reflexivity. Qed.
Lemma lines_nth j n d k j' i' d' : nth_error (lines j n d) k = Some (j', i', d') -> j' = j /\ i' = k /\ d' = d /\ k < n.
Proof.
  intros H. assert (Hk : k < n) by (rewrite <- (lines_length j n d); apply nth_error_Some; congruence).
  unfold lines in H. rewrite nth_error_map in H. rewrite (nth_error_nth' _ 0) in H by (rewrite seq_length; exact Hk).
  rewrite seq_nth in H by exact Hk. cbn in H. injection H as <- <- <-. auto.
Qed.
Lemma eq_lines1_length b j c : length (eq_lines1 b j c) = one_e b c.
Proof.
  unfold eq_lines1, one_e, rows_of, nrows. destruct b, (c_kind c); try reflexivity; apply lines_length.
Qed.
Lemma in_lines1_length b j c : length (in_lines1 b j c) = one_i b c.
Proof.
  unfold in_lines1, one_i, rows_of, nrows. destruct b, (c_kind c); rewrite ?app_length, ?lines_length; cbn [length]; lia.
Qed.
Lemma stack_length b l : forall j, length (stack (eq_lines1 b) j l) = use_e b l /\ length (stack (in_lines1 b) j l) = use_i b l.
Proof.
  induction l as [|[w c] l IH]; intros j; cbn [stack].
  - destruct b; split; reflexivity.
  - destruct (use_cons b w c l) as [-> ->]. rewrite !app_length, eq_lines1_length, in_lines1_length.
    destruct (IH (S j)) as [-> ->]. split; reflexivity.
Qed.

Lemma put_new (M : mat Rnum) v i r A a M' v' k : put_spec M v i r A a M' v' -> k < r ->
  (forall x, qrow M' x (i + k) = qrow A x k) /\ vget v' (i + k) = vget a k.
Proof.
  intros [H1 H2] Hk. apply mset_rows_inv in H1 as (_ & _ & C & _ & C' & E1 & _).
  apply vset_seg_inv in H2 as (_ & _ & _ & E2 & _). split.
  - intros x. apply qrow_ext; [congruence|]. intros j. rewrite E1 by lia. f_equal; lia.
  - rewrite E2 by lia. f_equal; lia.
Qed.
Lemma put_old (M : mat Rnum) v i r A a M' v' k : put_spec M v i r A a M' v' -> k < i ->
  (forall x, qrow M' x k = qrow M x k) /\ vget v' k = vget v k.
Proof.
  intros [H1 H2] Hk. apply mset_rows_inv in H1 as (_ & _ & _ & _ & C' & _ & E1).
  apply vset_seg_inv in H2 as (_ & _ & _ & _ & E2). split.
  - intros x. apply qrow_ext; [exact C'|]. intros j. apply E1; lia.
  - apply E2; lia.
Qed.

(** One constraint: the rows before stay, the new ones are its own. *)
Definition kept_ce (s s' : sst Rnum) ie := forall k, k < ie -> (forall x, qrow (q_CE s') x k = qrow (q_CE s) x k) /\ vget (q_ce0 s') k = vget (q_ce0 s) k.
Definition kept_ci (s s' : sst Rnum) ii := forall k, k < ii ->
  (forall x, qrow (q_CI s') x k = qrow (q_CI s) x k) /\ vget (q_cil s') k = vget (q_cil s) k /\ vget (q_ciu s') k = vget (q_ciu s) k.
Lemma kept_ce_refl s M l u ie : kept_ce s (w_in s M l u) ie. Proof. intros k _; split; reflexivity. Qed.
Lemma kept_ci_refl s M v ii : kept_ci s (w_eq s M v) ii. Proof. intros k _; repeat split; reflexivity. Qed.
Definition fresh_ce b s' ie j c := forall k j' i d, nth_error (eq_lines1 b j c) k = Some (j', i, d) -> j' = j /\ i < rows_of c /\ ce_row b s' (ie + k) c i d.
Definition fresh_ci b s' ii j c := forall k j' i d, nth_error (in_lines1 b j c) k = Some (j', i, d) -> j' = j /\ i < rows_of c /\ ci_row b s' (ii + k) c i d.

Lemma nil_fresh k (t : line) : nth_error (@nil line) k = Some t -> False.
Proof. destruct k; discriminate. Qed.
Lemma lhs_mat c x i : c_kind c <> CBound -> lhs c x i = qrow (c_mat c) x i.
Proof. unfold lhs. destruct (c_kind c); intros H; try reflexivity; congruence. Qed.
Lemma lhs_bound c x i : c_kind c = CBound -> lhs c x i = x i.
Proof. unfold lhs. intros ->. reflexivity. Qed.

Lemma one_step b n s ie ii w c s' ie' ii' j : match b with Eiq | Fast | Rt _ _ _ => True | _ => False end ->
  q_n s = n -> mcols (q_CI s) = n -> cwf n c -> fill_one (s, ie, ii) (w, c) = Some (s', ie', ii') ->
  kept_ce s s' ie /\ kept_ci s s' ii /\ fresh_ce b s' ie j c /\ fresh_ci b s' ii j c.
Proof.
  intros Hb Hn Hc W H. unfold fill_one in H. cbn [snd] in H.
  destruct (cwf_rows n c W) as [Hr _]. rewrite Hr in H. cbn [obind] in H. unfold cwf, nrows in *.
  assert (Eb : eq_lines1 b j c = match c_kind c with CEq => lines j (rows_of c) Exact | _ => [] end)
    by (unfold eq_lines1; destruct b, (c_kind c); try reflexivity; destruct Hb).
  assert (Ib : in_lines1 b j c = match c_kind c with CEq => [] | _ => lines j (rows_of c) Lower ++ lines j (rows_of c) Upper end)
    by (unfold in_lines1; destruct b, (c_kind c); try reflexivity; destruct Hb).
  unfold fresh_ce, fresh_ci. rewrite Eb, Ib. unfold rows_of. destruct (c_kind c) eqn:Ek.
  - obi H. prods. injection H as <- <- <-. apply put_inv in E.
    split; [|split; [apply kept_ci_refl|split]].
    + intros k Hk. apply (put_old _ _ _ _ _ _ _ _ k E Hk).
    + intros k j' i d Hl. apply lines_nth in Hl as (-> & -> & -> & Hk). split; [reflexivity|]. split; [exact Hk|].
      destruct (put_new _ _ _ _ _ _ _ _ k E Hk) as [Q V].
      assert (Z : forall x, (qrow (q_CE (w_eq s m v)) x (ie + k) + vget (q_ce0 (w_eq s m v)) (ie + k) = lhs c x k - vget (c_vec c) k)%R).
      { intros x. cbn [w_eq q_CE q_ce0]. rewrite Q, V, lhs_mat by congruence. cbn [vopp vget nopp]. cbn. ring. }
      destruct b; try (destruct Hb); exact Z.
    + intros k j' i d Hl. destruct (nil_fresh _ _ Hl).
  - obi H. prods. cbn beta iota in H. obi H. prods. injection H as <- <- <-. apply put_inv in E, E0. destruct W as (W1 & W2 & W3).
    split; [apply kept_ce_refl|split; [|split]].
    + intros k Hk. cbn [w_in q_CI q_cil q_ciu]. destruct (put_old _ _ _ _ _ _ _ _ k E Hk) as [A1 A2].
      destruct (put_old _ _ _ _ _ _ _ _ k E0) as [B1 B2]; [lia|]. split; [intros x; rewrite B1; apply A1|]. split; [congruence|reflexivity].
    + intros k j' i d Hl. destruct (nil_fresh _ _ Hl).
    + intros k j' i d Hl. destruct (le_lt_dec (mrows (c_mat c)) k) as [Hk|Hk].
      * rewrite nth_error_app2 in Hl by (rewrite lines_length; exact Hk). rewrite lines_length in Hl.
        apply lines_nth in Hl as (-> & -> & -> & Hk'). split; [reflexivity|]. split; [exact Hk'|].
        destruct (put_new _ _ _ _ _ _ _ _ _ E0 Hk') as [Q V].
        replace (ii + mrows (c_mat c) + (k - mrows (c_mat c))) with (ii + k) in Q, V by lia.
        assert (Z : forall x, (qrow m0 x (ii + k) + vget v0 (ii + k) = vget (c_ub c) (k - mrows (c_mat c)) - lhs c x (k - mrows (c_mat c)))%R).
        { intros x. rewrite Q, V, qrow_opp, lhs_mat by congruence. ring. }
        destruct b; try (destruct Hb); exact Z.
      * rewrite nth_error_app1 in Hl by (rewrite lines_length; exact Hk).
        apply lines_nth in Hl as (-> & -> & -> & _). split; [reflexivity|]. split; [exact Hk|].
        destruct (put_new _ _ _ _ _ _ _ _ _ E Hk) as [Q V]. destruct (put_old _ _ _ _ _ _ _ _ (ii + k) E0) as [Q' V']; [lia|].
        assert (Z : forall x, (qrow m0 x (ii + k) + vget v0 (ii + k) = lhs c x k - vget (c_lb c) k)%R).
        { intros x. rewrite Q', V', Q, V, lhs_mat by congruence. cbn [vopp vget nopp]. cbn. ring. }
        destruct b; try (destruct Hb); exact Z.
  - obi H. prods. cbn beta iota in H. obi H. prods. injection H as <- <- <-. apply put_inv in E, E0. destruct W as (W2 & W3).
    split; [apply kept_ce_refl|split; [|split]].
    + intros k Hk. cbn [w_in q_CI q_cil q_ciu]. destruct (put_old _ _ _ _ _ _ _ _ k E Hk) as [A1 A2].
      destruct (put_old _ _ _ _ _ _ _ _ k E0) as [B1 B2]; [lia|]. split; [intros x; rewrite B1; apply A1|]. split; [congruence|reflexivity].
    + intros k j' i d Hl. destruct (nil_fresh _ _ Hl).
    + intros k j' i d Hl. destruct (le_lt_dec (vlen (c_lb c)) k) as [Hk|Hk].
      * rewrite nth_error_app2 in Hl by (rewrite lines_length; exact Hk). rewrite lines_length in Hl.
        apply lines_nth in Hl as (-> & -> & -> & Hk'). split; [reflexivity|]. split; [exact Hk'|].
        destruct (put_new _ _ _ _ _ _ _ _ _ E0 Hk') as [Q V].
        replace (ii + vlen (c_lb c) + (k - vlen (c_lb c))) with (ii + k) in Q, V by lia.
        assert (Z : forall x, (qrow m0 x (ii + k) + vget v0 (ii + k) = vget (c_ub c) (k - vlen (c_lb c)) - lhs c x (k - vlen (c_lb c)))%R).
        { intros x. rewrite Q, V, qrow_opp, qrow_id, lhs_bound by (lia || congruence). ring. }
        destruct b; try (destruct Hb); exact Z.
      * rewrite nth_error_app1 in Hl by (rewrite lines_length; exact Hk).
        apply lines_nth in Hl as (-> & -> & -> & _). split; [reflexivity|]. split; [exact Hk|].
        destruct (put_new _ _ _ _ _ _ _ _ _ E Hk) as [Q V]. destruct (put_old _ _ _ _ _ _ _ _ (ii + k) E0) as [Q' V']; [lia|].
        assert (Z : forall x, (qrow m0 x (ii + k) + vget v0 (ii + k) = lhs c x k - vget (c_lb c) k)%R).
        { intros x. rewrite Q', V', Q, V, qrow_id, lhs_bound by (lia || congruence). cbn [vopp vget nopp]. cbn. ring. }
        destruct b; try (destruct Hb); exact Z.
Qed.

Lemma put2_step (s : sst Rnum) ie ii r A a b0 M l u :
  put2 (q_CI s) (q_cil s) (q_ciu s) ii r A a b0 = Some (M, l, u) ->
  kept_ce s (w_in s M l u) ie /\ kept_ci s (w_in s M l u) ii /\
  (forall k, k < r -> (forall x, qrow M x (ii + k) = qrow A x k) /\ vget l (ii + k) = vget a k /\ vget u (ii + k) = vget b0 k).
Proof.
  intros E. apply put2_inv in E as [E E0]. split; [|split].
  - intros k Hk; split; reflexivity.
  - intros k Hk. cbn [w_in q_CI q_cil q_ciu]. destruct (put_old _ _ _ _ _ _ _ _ k E Hk). destruct (put_old _ _ _ _ _ _ _ _ k E0 Hk). auto.
  - intros k Hk. destruct (put_new _ _ _ _ _ _ _ _ k E Hk). destruct (put_new _ _ _ _ _ _ _ _ k E0 Hk). auto.
Qed.
Lemma two_step b n s ie ii w c s' ie' ii' j : match b with Prox | Osqp | Qpmad => True | _ => False end ->
  mcols (q_CI s) = n -> cwf n c -> fill b (s, ie, ii) (w, c) = Some (s', ie', ii') ->
  kept_ce s s' ie /\ kept_ci s s' ii /\ fresh_ce b s' ie j c /\ fresh_ci b s' ii j c.
Proof.
  intros Hb Hc W H.
  assert (D : c_kind c = CEq \/ c_kind c = CIneq \/ c_kind c = CBound) by (destruct (c_kind c); auto).
  destruct (cwf_rows n c W) as [Hr _]. unfold cwf, nrows in *. unfold fresh_ce, fresh_ci, eq_lines1, in_lines1, rows_of.
  destruct b; try (destruct Hb); cbn [fill] in H; unfold fill_prox, fill_osqp, fill_qpmad in H; cbn [snd] in H; rewrite Hr in H; cbn [obind] in H;
    (destruct D as [Ek|[Ek|Ek]]; rewrite Ek in *).
  - obi H. prods. injection H as <- <- <-. apply put_inv in E. split; [|split; [apply kept_ci_refl|split]].
    + intros k Hk. apply (put_old _ _ _ _ _ _ _ _ k E Hk).
    + intros k j' i d Hl. apply lines_nth in Hl as (-> & -> & -> & Hk). split; [reflexivity|]. split; [exact Hk|].
      destruct (put_new _ _ _ _ _ _ _ _ k E Hk) as [Q V]. cbn [ce_row w_eq q_CE q_ce0].
      split; [intros x; rewrite Q, lhs_mat by congruence; reflexivity|exact V].
    + intros k j' i d Hl. destruct (nil_fresh _ _ Hl).
  - obi H. prods. injection H as <- <- <-. destruct (put2_step _ ie _ _ _ _ _ _ _ _ E) as (X & Y & Z). split; [exact X|]. split; [exact Y|]. split.
    + intros k j' i d Hl. destruct (nil_fresh _ _ Hl).
    + intros k j' i d Hl. apply lines_nth in Hl as (-> & -> & -> & Hk). split; [reflexivity|]. split; [exact Hk|].
      destruct (Z k Hk) as (Q & V1 & V2). cbn [ci_row w_in q_CI q_cil q_ciu].
      split; [intros x; rewrite Q, lhs_mat by congruence; reflexivity|auto].
  - obi H. prods. injection H as <- <- <-. destruct (put2_step _ ie _ _ _ _ _ _ _ _ E) as (X & Y & Z). split; [exact X|]. split; [exact Y|]. split.
    + intros k j' i d Hl. destruct (nil_fresh _ _ Hl).
    + intros k j' i d Hl. apply lines_nth in Hl as (-> & -> & -> & Hk). split; [reflexivity|]. split; [exact Hk|].
      destruct (Z k Hk) as (Q & V1 & V2). cbn [ci_row w_in q_CI q_cil q_ciu]. destruct W as [W2 W3].
      split; [intros x; rewrite Q, lhs_bound, Hc, qrow_id by (lia || congruence); reflexivity|auto].
  - obi H. prods. injection H as <- <- <-. destruct (put2_step _ ie _ _ _ _ _ _ _ _ E) as (X & Y & Z). split; [exact X|]. split; [exact Y|]. split.
    + intros k j' i d Hl. destruct (nil_fresh _ _ Hl).
    + intros k j' i d Hl. apply lines_nth in Hl as (-> & -> & -> & Hk). split; [reflexivity|]. split; [exact Hk|].
      destruct (Z k Hk) as (Q & V1 & V2). cbn [ci_row w_in q_CI q_cil q_ciu].
      split; [intros x; rewrite Q, lhs_mat by congruence; reflexivity|auto].
  - obi H. prods. injection H as <- <- <-. destruct (put2_step _ ie _ _ _ _ _ _ _ _ E) as (X & Y & Z). split; [exact X|]. split; [exact Y|]. split.
    + intros k j' i d Hl. destruct (nil_fresh _ _ Hl).
    + intros k j' i d Hl. apply lines_nth in Hl as (-> & -> & -> & Hk). split; [reflexivity|]. split; [exact Hk|].
      destruct (Z k Hk) as (Q & V1 & V2). cbn [ci_row w_in q_CI q_cil q_ciu].
      split; [intros x; rewrite Q, lhs_mat by congruence; reflexivity|auto].
  - obi H. prods. injection H as <- <- <-. destruct (put2_step _ ie _ _ _ _ _ _ _ _ E) as (X & Y & Z). split; [exact X|]. split; [exact Y|]. split.
    + intros k j' i d Hl. destruct (nil_fresh _ _ Hl).
    + intros k j' i d Hl. apply lines_nth in Hl as (-> & -> & -> & Hk). split; [reflexivity|]. split; [exact Hk|].
      destruct (Z k Hk) as (Q & V1 & V2). cbn [ci_row w_in q_CI q_cil q_ciu]. destruct W as [W2 W3].
      split; [intros x; rewrite Q, lhs_bound, Hc, qrow_id by (lia || congruence); reflexivity|auto].
  - obi H. prods. injection H as <- <- <-. destruct (put2_step _ ie _ _ _ _ _ _ _ _ E) as (X & Y & Z). split; [exact X|]. split; [exact Y|]. split.
    + intros k j' i d Hl. destruct (nil_fresh _ _ Hl).
    + intros k j' i d Hl. apply lines_nth in Hl as (-> & -> & -> & Hk). split; [reflexivity|]. split; [exact Hk|].
      destruct (Z k Hk) as (Q & V1 & V2). cbn [ci_row w_in q_CI q_cil q_ciu].
      split; [intros x; rewrite Q, lhs_mat by congruence; reflexivity|auto].
  - obi H. prods. injection H as <- <- <-. destruct (put2_step _ ie _ _ _ _ _ _ _ _ E) as (X & Y & Z). split; [exact X|]. split; [exact Y|]. split.
    + intros k j' i d Hl. destruct (nil_fresh _ _ Hl).
    + intros k j' i d Hl. apply lines_nth in Hl as (-> & -> & -> & Hk). split; [reflexivity|]. split; [exact Hk|].
      destruct (Z k Hk) as (Q & V1 & V2). cbn [ci_row w_in q_CI q_cil q_ciu].
      split; [intros x; rewrite Q, lhs_mat by congruence; reflexivity|auto].
  - obi H. obi H. injection H as <- <- <-. split; [intros k Hk; split; reflexivity|]. split; [intros k Hk; repeat split; reflexivity|].
    split; intros k j' i d Hl; destruct (nil_fresh _ _ Hl).
Qed.
Lemma any_step b n s ie ii w c s' ie' ii' j :
  q_n s = n -> mcols (q_CI s) = n -> cwf n c -> fill b (s, ie, ii) (w, c) = Some (s', ie', ii') ->
  kept_ce s s' ie /\ kept_ci s s' ii /\ fresh_ce b s' ie j c /\ fresh_ci b s' ii j c.
Proof.
  intros Hn Hc W H. destruct b; cbn [fill] in H.
  - apply (one_step Eiq n s ie ii w c s' ie' ii' j I Hn Hc W H).
  - apply (one_step Fast n s ie ii w c s' ie' ii' j I Hn Hc W H).
  - apply (one_step (Rt nv ne ni) n s ie ii w c s' ie' ii' j I Hn Hc W H).
  - apply (two_step Prox n s ie ii w c s' ie' ii' j I Hc W H).
  - apply (two_step Osqp n s ie ii w c s' ie' ii' j I Hc W H).
  - apply (two_step Qpmad n s ie ii w c s' ie' ii' j I Hc W H).
Qed.

Lemma ce_row_kept b s s' k c i d ie : kept_ce s s' ie -> k < ie -> ce_row b s k c i d -> ce_row b s' k c i d.
Proof.
  intros Hk Hl H. destruct (Hk k Hl) as [Q V]. unfold ce_row in *. destruct b, d; try exact H;
    try (intros x; rewrite Q, V; apply H). destruct H as [H1 H2]. split; [intros x; rewrite Q; apply H1|congruence].
Qed.
Lemma ci_row_kept b s s' k c i d ii : kept_ci s s' ii -> k < ii -> ci_row b s k c i d -> ci_row b s' k c i d.
Proof.
  intros Hk Hl H. destruct (Hk k Hl) as (Q & V1 & V2). unfold ci_row in *. destruct b, d; try exact H;
    try (intros x; rewrite Q, V1; apply H).
  all: destruct H as (H1 & H2 & H3); split; [intros x; rewrite Q; apply H1|split; congruence].
Qed.
Lemma fills_listed b n (cl0 : level Rnum) l : forall s ie ii s' ie' ii' j E I, q_n s = n -> mcols (q_CI s) = n -> lwf n l ->
  (forall p, nth_error cl0 (j + p) = nth_error l p) -> ie = length E -> ii = length I ->
  listed cl0 (ce_row b s) E -> listed cl0 (ci_row b s) I ->
  ofold (fill b) l (s, ie, ii) = Some (s', ie', ii') ->
  listed cl0 (ce_row b s') (E ++ stack (eq_lines1 b) j l) /\ listed cl0 (ci_row b s') (I ++ stack (in_lines1 b) j l).
Proof.
  induction l as [|[w c] l IH]; intros s ie ii s' ie' ii' j E I Hn Hc W Hj He Hi HE HI H; cbn [ofold] in H.
  - injection H as <- <- <-. cbn [stack]. rewrite !app_nil_r. auto.
  - destruct (fill b (s, ie, ii) (w, c)) as [[[s1 ie1] ii1]|] eqn:G; [|discriminate].
    assert (Wc : cwf n c) by (apply (W w); left; reflexivity).
    destruct (any_step b n s ie ii w c s1 ie1 ii1 j Hn Hc Wc G) as (K1 & K2 & F1 & F2).
    destruct (fill_dims _ _ _ _ _ _ _ _ G) as [D _]. unfold dims in D. injection D as Dn _ _ _ _ _ _ Dc _ _ _ _ _ _ _.
    destruct (fill_next _ _ _ _ _ _ _ _ _ G) as [N1 N2].
    assert (Hcj : nth_error cl0 j = Some (w, c)) by (rewrite <- (Nat.add_0_r j); rewrite Hj; reflexivity).
    assert (A1 : listed cl0 (ce_row b s1) (E ++ eq_lines1 b j c)).
    { intros k j' i d Hk. destruct (le_lt_dec (length E) k) as [L|L].
      - rewrite nth_error_app2 in Hk by exact L. destruct (F1 _ _ _ _ Hk) as (-> & Hi' & R).
        exists w, c. split; [exact Hcj|]. split; [exact Hi'|]. replace (ie + (k - length E)) with k in R by lia. exact R.
      - rewrite nth_error_app1 in Hk by exact L. destruct (HE _ _ _ _ Hk) as (w' & c' & X1 & X2 & X3).
        exists w', c'. split; [exact X1|]. split; [exact X2|]. eapply ce_row_kept; [exact K1|lia|exact X3]. }
    assert (A2 : listed cl0 (ci_row b s1) (I ++ in_lines1 b j c)).
    { intros k j' i d Hk. destruct (le_lt_dec (length I) k) as [L|L].
      - rewrite nth_error_app2 in Hk by exact L. destruct (F2 _ _ _ _ Hk) as (-> & Hi' & R).
        exists w, c. split; [exact Hcj|]. split; [exact Hi'|]. replace (ii + (k - length I)) with k in R by lia. exact R.
      - rewrite nth_error_app1 in Hk by exact L. destruct (HI _ _ _ _ Hk) as (w' & c' & X1 & X2 & X3).
        exists w', c'. split; [exact X1|]. split; [exact X2|]. eapply ci_row_kept; [exact K2|lia|exact X3]. }
    cbn [stack]. rewrite !app_assoc. apply (IH s1 ie1 ii1 s' ie' ii' (S j)).
    + congruence.
    + congruence.
    + intros w' c' Hin. apply (W w'). right; exact Hin.
    + intros p. specialize (Hj (S p)). rewrite <- plus_n_Sm in Hj. exact Hj.
    + rewrite app_length, eq_lines1_length. lia.
    + rewrite app_length, in_lines1_length. lia.
    + exact A1.
    + exact A2.
    + exact H.
Qed.

Lemma level0_rows b dbg jk s cl0 s' n : sized b s -> lwf n cl0 -> cl0 <> [] -> q_n s' = n -> fits b n [cl0] ->
  level0 b dbg jk s cl0 = Some s' ->
  (match b with Eiq | Fast | Rt _ _ _ | Prox => mrows (q_CE s') = length (eq_lines b cl0) | _ => True end) /\
  mrows (q_CI s') = length (in_lines b cl0) /\ listed cl0 (ce_row b s') (eq_lines b cl0) /\ listed cl0 (ci_row b s') (in_lines b cl0).
Proof.
  intros S W Hne Hn F H. destruct cl0 as [|[w c] l]; [congruence|]. cbn [level0 snd] in H.
  assert (Wn : cwf n c) by (apply (W w); left; reflexivity).
  destruct (cwf_rows n c Wn) as [_ Hcc]. rewrite Hcc in H. cbn [obind] in H.
  destruct (counts b n ((w, c) :: l)) as [q|] eqn:Hx; [cbn [obind] in H|discriminate].
  destruct (counts_spec _ _ _ _ Hx) as [_ ->]. cbn beta iota in H.
  set (L := (w, c) :: l) in *. set (hb := match b with Qpmad => bound_in L | _ => false end) in *.
  destruct (resize b dbg jk (note_bounds b s hb) n (rows_if is_eq L) (rows_if (in_test b) L)) as [u|] eqn:Eu; [cbn [obind] in H|discriminate].
  assert (U : sized b u) by (eapply resize_sized; [apply note_sized; exact S|exact Eu]).
  pose proof (resize_new _ _ _ _ _ _ _ _ (note_sized b s hb S) Eu) as N1.
  destruct (ofold (fill b) L (reset_bounds b u, 0, 0)) as [[[v a1] b1]|] eqn:G; [cbn [obind] in H|discriminate].
  injection H as <-.
  destruct (fills_dims _ _ _ _ _ _ _ _ G) as [D _]. rewrite reset_dims in D.
  assert (V : sized b v) by (eapply dims_sized; eauto).
  assert (D' := D). unfold dims in D'. injection D' as DA DB DC _ _ _ DD _ _ _ _ _ _ _ _.
  assert (RD := reset_dims b u). unfold dims in RD. injection RD as RDn _ _ _ _ _ _ RDc _ _ _ _ _ _ _.
  assert (C1 : q_n (reset_bounds b u) = n) by congruence.
  assert (C2 : mcols (q_CI (reset_bounds b u)) = n) by (unfold sized in U; intuition congruence).
  destruct (stack_length b L 0) as [L1 L2]. unfold eq_lines, in_lines. rewrite L1, L2.
  split; [|split].
  - unfold sized in V. unfold use_e. destruct b; cbn [fits in_test] in *; auto; intuition lia.
  - unfold sized in V. unfold use_i. destruct b; cbn [fits in_test] in *; intuition lia.
  - assert (Z : forall rel, listed L rel []) by (intros rel k j i d Hk; destruct (nil_fresh _ _ Hk)).
    apply (fills_listed b n L L _ _ _ _ _ _ 0 [] [] C1 C2 W (fun p => eq_refl) eq_refl eq_refl (Z _) (Z _) G).
Qed.
Theorem solve_rows b dbg jk s n P ans x0 s' res : usable b dbg n P s -> pwf n P ->
  solve b dbg jk s P ans x0 = Ret s' res -> forall cl0, nth_error P 0 = Some cl0 ->
  (match b with Eiq | Fast | Rt _ _ _ | Prox => mrows (q_CE s') = length (eq_lines b cl0) | _ => True end) /\
  mrows (q_CI s') = length (in_lines b cl0) /\ listed cl0 (ce_row b s') (eq_lines b cl0) /\ listed cl0 (ci_row b s') (in_lines b cl0).
Proof.
  intros U W H cl0 H0. assert (U' := U). destruct U as (S & F & _). apply state_sized in S.
  destruct (prepare_ok b dbg jk s n P (default_flag b) S W F) as (s1 & E & N).
  { destruct W as (c0 & c1 & -> & _). cbn [nth_error]. intros c2 H2; injection H2 as <-. eapply usable_ready; exact U'. }
  apply solve_prepare in H as (s2 & E2 & -> & _). rewrite E in E2. injection E2 as <-.
  destruct W as (c0 & c1 & -> & Hne & W0 & _). cbn in H0. injection H0 as ->.
  cbn [prepare] in E. destruct (2 <? _); [discriminate|].
  destruct (level0 b dbg jk s cl0) as [u|] eqn:E0; [|discriminate].
  pose proof (level1_dims b (default_flag b) u c1) as D. rewrite E in D. destruct D as [_ D].
  assert (Nu : q_n u = n) by (rewrite D in N; exact N).
  destruct (level0_rows b dbg jk s cl0 u n S W0 Hne Nu) as (A & B & C & E'); [destruct b; exact F|exact E0|].
  rewrite D. auto.
Qed.

(** ** Multipliers *)
(** Optimality conditions of the QP with multipliers [u] of CE and [z] of CI, in the sign
    conventions of the libraries: eiquadprog solves CE x + ce0 = 0, CI x + ci0 >= 0 and has
    H x + g = CE' u + CI' z with z >= 0; proxsuite and osqp have H x + g + CE' u + CI' z = 0
    where z is positive only at the upper bound and negative only at the lower one. *)
Definition tdot (M : mat Rnum) (v : nat -> R) (i : nat) : R := @nsum Rnum (mrows M) (fun k => mget M k i * v k)%R.
Definition two_sided_mult (s : sst Rnum) (x z : nat -> R) : Prop :=
  forall k, k < mrows (q_CI s) ->
    ((0 < z k)%R -> qrow (q_CI s) x k = vget (q_ciu s) k) /\ ((z k < 0)%R -> qrow (q_CI s) x k = vget (q_cil s) k).
Definition multipliers (b : backend) (s : sst Rnum) (x u z : nat -> R) : Prop :=
  match b with
  | Eiq | Fast | Rt _ _ _ =>
      (forall i, i < q_n s -> (qrow (q_H s) x i + vget (q_g s) i = tdot (q_CE s) u i + tdot (q_CI s) z i)%R) /\
      (forall k, k < mrows (q_CI s) -> (0 <= z k /\ z k * (qrow (q_CI s) x k + vget (q_cil s) k) = 0)%R)
  | Prox =>
      (forall i, i < q_n s -> (qrow (q_H s) x i + vget (q_g s) i + tdot (q_CE s) u i + tdot (q_CI s) z i = 0)%R) /\
      two_sided_mult s x z
  | Osqp =>
      (forall i, i < q_n s -> (qrow (q_H s) x i + vget (q_g s) i + tdot (q_CI s) z i = 0)%R) /\ two_sided_mult s x z
  | Qpmad => False
  end.
(** Directional derivative of the user's cost. *)
Definition task_slope (x h : nat -> R) (wc : R * constr Rnum) : R :=
  (fst wc * @nsum Rnum (mrows (c_mat (snd wc))) (fun k => residual (snd wc) x k * qrow (c_mat (snd wc)) h k))%R.
Definition slope (r : R) (n : nat) (cl1 : level Rnum) (x h : nat -> R) : R :=
  (lsum (task_slope x h) cl1 + r * @nsum Rnum n (fun i => x i * h i))%R.
(** Change of a listed row along [h]: of the slack of a single side, otherwise of the row itself. *)
Definition line_change (cl0 : level Rnum) (h : nat -> R) (t : line) : R :=
  let '(j, i, d) := t in
  match nth_error cl0 j with
  | Some (_, c) => match d with Upper => (- lhs c h i)%R | _ => lhs c h i end
  | None => 0%R
  end.
(** Sum over listed rows of the multiplier times the change. *)
Definition priced (cl0 : level Rnum) (L : list line) (v : nat -> R) (h : nat -> R) : R :=
  @nsum Rnum (length L) (fun k => v k * line_change cl0 h (nth k L (0%nat, 0%nat, Exact)))%R.
(** The user's statement of optimality: the cost changes at the price of the constraints. *)
Definition priced_slope (b : backend) (n : nat) (cl0 cl1 : level Rnum) (x u z : nat -> R) : Prop :=
  forall h, match b with
  | Eiq | Fast | Rt _ _ _ =>
      slope (solve_reg b) n cl1 x h = (priced cl0 (eq_lines b cl0) u h + priced cl0 (in_lines b cl0) z h)%R
  | _ => (slope (solve_reg b) n cl1 x h + priced cl0 (eq_lines b cl0) u h + priced cl0 (in_lines b cl0) z h = 0)%R
  end.

Lemma qrow_plus M x h k : qrow M (fun i => x i + h i)%R k = (qrow M x k + qrow M h k)%R.
Proof. unfold qrow. rewrite <- rsum_plus. apply rsum_ext. intros j _. ring. Qed.
Lemma qrow_zero M k : qrow M (fun _ => 0%R) k = 0%R.
Proof. unfold qrow. apply rsum_zero. intros j _. ring. Qed.
Lemma lhs_zero c i : lhs c (fun _ => 0%R) i = 0%R.
Proof. unfold lhs. destruct (c_kind c); try reflexivity; apply qrow_zero. Qed.
Lemma lhs_minus c x y i : lhs c (fun k => x k - y k)%R i = (lhs c x i - lhs c y i)%R.
Proof. unfold lhs. destruct (c_kind c); try reflexivity; apply qrow_minus. Qed.

Lemma sym_swap n (a : nat -> nat -> R) x h : (forall i j, a i j = a j i) ->
  rsum n (fun i => x i * rsum n (fun j => a i j * h j))%R = rsum n (fun i => h i * rsum n (fun j => a i j * x j))%R.
Proof.
  intros S. transitivity (rsum n (fun i => rsum n (fun j => x i * (a i j * h j))))%R.
  { apply rsum_ext. intros i _. rewrite <- rsum_scal. reflexivity. }
  rewrite rsum_swap. apply rsum_ext. intros i _. rewrite <- rsum_scal. apply rsum_ext. intros j _. rewrite (S j i). ring.
Qed.
Lemma cost_gradient (s : sst Rnum) x h : mrows (q_H s) = q_n s -> mcols (q_H s) = q_n s -> vlen (q_g s) = q_n s ->
  (forall i j, mget (q_H s) i j = mget (q_H s) j i) ->
  (qp_cost s (fun i => x i + h i) - qp_cost s (fun i => x i - h i)
   = 2 * rsum (q_n s) (fun i => h i * (qrow (q_H s) x i + vget (q_g s) i)))%R.
Proof.
  intros H1 H2 H3 S. unfold qp_cost. rewrite H1, H3.
  assert (A : rsum (q_n s) (fun i => (x i + h i) * qrow (q_H s) (fun i => x i + h i)%R i)%R
            = (rsum (q_n s) (fun i => x i * qrow (q_H s) x i) + rsum (q_n s) (fun i => h i * qrow (q_H s) h i)
               + 2 * rsum (q_n s) (fun i => h i * qrow (q_H s) x i))%R).
  { assert (W : rsum (q_n s) (fun i => x i * qrow (q_H s) h i)%R = rsum (q_n s) (fun i => h i * qrow (q_H s) x i)%R).
    { unfold qrow. rewrite H2. apply sym_swap. exact S. }
    replace (2 * rsum (q_n s) (fun i => h i * qrow (q_H s) x i))%R
      with (rsum (q_n s) (fun i => x i * qrow (q_H s) h i) + rsum (q_n s) (fun i => h i * qrow (q_H s) x i))%R by (rewrite W; ring).
    rewrite <- !rsum_plus. apply rsum_ext. intros i _. rewrite qrow_plus. ring. }
  assert (B : rsum (q_n s) (fun i => (x i - h i) * qrow (q_H s) (fun i => x i - h i)%R i)%R
            = (rsum (q_n s) (fun i => x i * qrow (q_H s) x i) + rsum (q_n s) (fun i => h i * qrow (q_H s) h i)
               - 2 * rsum (q_n s) (fun i => h i * qrow (q_H s) x i))%R).
  { assert (W : rsum (q_n s) (fun i => x i * qrow (q_H s) h i)%R = rsum (q_n s) (fun i => h i * qrow (q_H s) x i)%R).
    { unfold qrow. rewrite H2. apply sym_swap. exact S. }
    replace (2 * rsum (q_n s) (fun i => h i * qrow (q_H s) x i))%R
      with (rsum (q_n s) (fun i => x i * qrow (q_H s) h i) + rsum (q_n s) (fun i => h i * qrow (q_H s) x i))%R by (rewrite W; ring).
    rewrite <- !rsum_plus, <- rsum_minus. apply rsum_ext. intros i _. rewrite qrow_minus. ring. }
  assert (C : rsum (q_n s) (fun i => vget (q_g s) i * (x i + h i))%R
            = (rsum (q_n s) (fun i => vget (q_g s) i * x i) + rsum (q_n s) (fun i => h i * vget (q_g s) i))%R).
  { rewrite <- rsum_plus. apply rsum_ext. intros i _. ring. }
  assert (D : rsum (q_n s) (fun i => vget (q_g s) i * (x i - h i))%R
            = (rsum (q_n s) (fun i => vget (q_g s) i * x i) - rsum (q_n s) (fun i => h i * vget (q_g s) i))%R).
  { rewrite <- rsum_minus. apply rsum_ext. intros i _. ring. }
  assert (E : rsum (q_n s) (fun i => h i * (qrow (q_H s) x i + vget (q_g s) i))%R
            = (rsum (q_n s) (fun i => h i * qrow (q_H s) x i) + rsum (q_n s) (fun i => h i * vget (q_g s) i))%R).
  { rewrite <- rsum_plus. apply rsum_ext. intros i _. ring. }
  change (@nsum Rnum) with rsum in *. rewrite A, B, C, D, E. lra.
Qed.
Lemma sqnorm_pm n p q : (sqnorm n (fun i => p i + q i) - sqnorm n (fun i => p i - q i) = 4 * rsum n (fun i => p i * q i))%R.
Proof. unfold sqnorm. rewrite <- rsum_minus, <- rsum_scal. apply rsum_ext. intros i _. ring. Qed.
Lemma sqnorm_ext n p q : (forall i, i < n -> p i = q i) -> sqnorm n p = sqnorm n q.
Proof. intros H. unfold sqnorm. apply rsum_ext. intros i Hi. rewrite H by exact Hi. reflexivity. Qed.
Lemma task_pm wc x h : (task_cost wc (fun i => x i + h i) - task_cost wc (fun i => x i - h i) = 4 * task_slope x h wc)%R.
Proof.
  unfold task_cost, task_slope. destruct wc as [w c]. cbn [fst snd].
  rewrite (sqnorm_ext _ (residual c (fun i => x i + h i)%R) (fun k => residual c x k + qrow (c_mat c) h k)%R)
    by (intros i _; unfold residual; rewrite qrow_plus; ring).
  rewrite (sqnorm_ext _ (residual c (fun i => x i - h i)%R) (fun k => residual c x k - qrow (c_mat c) h k)%R)
    by (intros i _; unfold residual; rewrite qrow_minus; ring).
  pose proof (sqnorm_pm (mrows (c_mat c)) (residual c x) (qrow (c_mat c) h)) as Y. change (@nsum Rnum) with rsum in *.
  rewrite <- Rmult_minus_distr_l, Y. ring.
Qed.
Lemma least_squares_pm r n cl1 x h :
  (least_squares r n cl1 (fun i => x i + h i) - least_squares r n cl1 (fun i => x i - h i) = 2 * slope r n cl1 x h)%R.
Proof.
  unfold least_squares, slope. pose proof (sqnorm_pm n x h) as Y.
  assert (Z : (lsum (fun wc => task_cost wc (fun i => x i + h i)%R) cl1 - lsum (fun wc => task_cost wc (fun i => x i - h i)%R) cl1
             = 4 * lsum (task_slope x h) cl1)%R).
  { induction cl1 as [|wc l IH]; [unfold lsum; simpl; lra|]. rewrite !lsum_cons. pose proof (task_pm wc x h). lra. }
  change (@nsum Rnum) with rsum in *. nra.
Qed.
(** Rows of the QP are linear: their change is that of the listed row. *)
Lemma ce_change b s cl0 L h k : listed cl0 (ce_row b s) L -> k < length L ->
  qrow (q_CE s) h k = line_change cl0 h (nth k L (0, 0, Exact)).
Proof.
  intros H Hk. destruct (nth k L (0, 0, Exact)) as [[j i] d] eqn:E.
  assert (N : nth_error L k = Some (j, i, d)) by (rewrite <- E; apply nth_error_nth'; exact Hk).
  destruct (H _ _ _ _ N) as (w & c & Hc & _ & R). unfold line_change. rewrite Hc.
  unfold ce_row in R. destruct b, d; try (destruct R; fail).
  1,2,3: pose proof (R h) as R1; pose proof (R (fun _ => 0%R)) as R0; rewrite qrow_zero, lhs_zero in R0; lra.
  destruct R as [R _]. apply R.
Qed.
Lemma ci_change b s cl0 L h k : listed cl0 (ci_row b s) L -> k < length L ->
  qrow (q_CI s) h k = line_change cl0 h (nth k L (0, 0, Exact)).
Proof.
  intros H Hk. destruct (nth k L (0, 0, Exact)) as [[j i] d] eqn:E.
  assert (N : nth_error L k = Some (j, i, d)) by (rewrite <- E; apply nth_error_nth'; exact Hk).
  destruct (H _ _ _ _ N) as (w & c & Hc & _ & R). unfold line_change. rewrite Hc.
  unfold ci_row in R. destruct b, d; try (destruct R; fail).
  1,2,3,4,5,6: pose proof (R h) as R1; pose proof (R (fun _ => 0%R)) as R0; rewrite qrow_zero, lhs_zero in R0; lra.
  all: destruct R as [R _]; apply R.
Qed.
Lemma tdot_dot (M : mat Rnum) n v h : mcols M = n -> rsum n (fun i => h i * tdot M v i)%R = rsum (mrows M) (fun k => v k * qrow M h k)%R.
Proof.
  intros <-. unfold tdot, qrow. transitivity (rsum (mcols M) (fun i => rsum (mrows M) (fun k => h i * (mget M k i * v k))))%R.
  { apply rsum_ext. intros i _. rewrite <- rsum_scal. reflexivity. }
  rewrite rsum_swap. apply rsum_ext. intros k _. rewrite <- rsum_scal. apply rsum_ext. intros i _. ring.
Qed.
Lemma priced_eq cl0 L (M : mat Rnum) v h : mrows M = length L ->
  (forall k, k < length L -> qrow M h k = line_change cl0 h (nth k L (0, 0, Exact))) ->
  rsum (mrows M) (fun k => v k * qrow M h k)%R = priced cl0 L v h.
Proof. intros H E. unfold priced. rewrite H. apply rsum_ext. intros k Hk. rewrite E by exact Hk. reflexivity. Qed.
Lemma solve_sized b dbg jk (s : sst Rnum) P ans x0 s' res : solver_state b dbg s -> solve b dbg jk s P ans x0 = Ret s' res -> sized b s'.
Proof.
  intros S H. apply state_sized in S. apply (sstep_sized b dbg s (SSolve b P jk ans x0) s' S). cbn [sstep]. rewrite H. reflexivity.
Qed.

Lemma eq_lines_osqp cl0 : eq_lines Osqp cl0 = [].
Proof.
  unfold eq_lines. generalize 0%nat. induction cl0 as [|[w c] l IH]; intros j; [reflexivity|]. cbn [stack]. rewrite IH.
  unfold eq_lines1. destruct (c_kind c); reflexivity.
Qed.
Lemma solve_vars b dbg jk (s : sst Rnum) n P ans x0 s' res : usable b dbg n P s -> pwf n P ->
  solve b dbg jk s P ans x0 = Ret s' res -> q_n s' = n.
Proof.
  intros U W H. assert (U' := U). destruct U as (S & F & _). apply state_sized in S.
  destruct (prepare_ok b dbg jk s n P (default_flag b) S W F) as (s1 & E & N).
  { destruct W as (c0 & c1 & -> & _). cbn [nth_error]. intros c2 H2; injection H2 as <-. eapply usable_ready; exact U'. }
  apply solve_prepare in H as (s2 & E2 & -> & _). rewrite E in E2. injection E2 as <-. exact N.
Qed.
(** The three parts of the stationarity condition along [h]. *)
Lemma price_parts b dbg jk s n cl0 cl1 ans x0 s' res x u z h :
  usable b dbg n [cl0; cl1] s -> pwf n [cl0; cl1] -> solve b dbg jk s [cl0; cl1] ans x0 = Ret s' res ->
  slope (solve_reg b) n cl1 x h = rsum (q_n s') (fun i => h i * (qrow (q_H s') x i + vget (q_g s') i))%R /\
  rsum (q_n s') (fun i => h i * tdot (q_CI s') z i)%R = priced cl0 (in_lines b cl0) z h /\
  (match b with Eiq | Fast | Rt _ _ _ | Prox => True | _ => False end ->
     rsum (q_n s') (fun i => h i * tdot (q_CE s') u i)%R = priced cl0 (eq_lines b cl0) u h).
Proof.
  intros U W H. destruct (solve_rows _ _ _ _ _ _ _ _ _ _ U W H cl0 eq_refl) as (R1 & R2 & L1 & L2).
  pose proof (solve_vars _ _ _ _ _ _ _ _ _ _ U W H) as N.
  assert (Z := solve_sized _ _ _ _ _ _ _ _ _ (proj1 U) H). destruct Z as (Z1 & Z2 & Z3 & Z4 & Z5 & _).
  split; [|split].
  - assert (Sy : forall i j, mget (q_H s') i j = mget (q_H s') j i).
    { assert (S := state_sized _ _ _ (proj1 U)). apply solve_prepare in H as (s1 & E & -> & _).
      destruct (prepare_cost b dbg jk s cl0 cl1 _ s1 (fun _ => 0%R) S E) as (_ & _ & Y). exact Y. }
    destruct (solve_cost _ _ _ _ _ _ _ _ _ _ (proj1 U) H) as [k C].
    pose proof (cost_gradient s' x h Z1 Z2 Z3 Sy) as A. rewrite !C, N in A.
    pose proof (least_squares_pm (solve_reg b) n cl1 x h) as B. rewrite N. lra.
  - rewrite tdot_dot by exact Z4. apply priced_eq; [exact R2|]. intros k Hk. eapply ci_change; eauto.
  - intros Hb. rewrite tdot_dot by (destruct b; try (destruct Hb); tauto).
    apply priced_eq; [destruct b; try (destruct Hb); exact R1|]. intros k Hk. eapply ce_change; eauto.
Qed.
Theorem multipliers_price b dbg jk s n cl0 cl1 ans x0 s' res x u z :
  usable b dbg n [cl0; cl1] s -> pwf n [cl0; cl1] -> solve b dbg jk s [cl0; cl1] ans x0 = Ret s' res ->
  multipliers b s' x u z -> priced_slope b n cl0 cl1 x u z.
Proof.
  intros U W H M h. destruct (price_parts _ _ _ _ _ _ _ _ _ _ _ x u z h U W H) as (G & PI & PE).
  rewrite G. destruct b; cbn [multipliers] in M; try (destruct M; fail).
  1,2,3: rewrite <- (PE I), <- PI, <- rsum_plus; apply rsum_ext; intros i Hi; rewrite (proj1 M i Hi); ring.
  - rewrite <- (PE I), <- PI, <- !rsum_plus. apply rsum_zero. intros i Hi. pose proof (proj1 M i Hi) as E. nra.
  - rewrite eq_lines_osqp. change (priced cl0 [] u h) with 0%R.
    rewrite <- PI, Rplus_0_r, <- rsum_plus. apply rsum_zero. intros i Hi. pose proof (proj1 M i Hi) as E. nra.
Qed.

Lemma sqnorm_plus n p q : sqnorm n (fun i => p i + q i)%R = (sqnorm n p + 2 * rsum n (fun i => p i * q i) + sqnorm n q)%R.
Proof. unfold sqnorm. rewrite <- rsum_scal, <- !rsum_plus. apply rsum_ext. intros i _. ring. Qed.
Lemma task_plus wc x h : task_cost wc (fun i => x i + h i)%R =
  (task_cost wc x + 2 * task_slope x h wc + fst wc * sqnorm (mrows (c_mat (snd wc))) (qrow (c_mat (snd wc)) h))%R.
Proof.
  unfold task_cost, task_slope. destruct wc as [w c]. cbn [fst snd].
  rewrite (sqnorm_ext _ (residual c (fun i => x i + h i)%R) (fun k => residual c x k + qrow (c_mat c) h k)%R)
    by (intros i _; unfold residual; rewrite qrow_plus; ring).
  rewrite sqnorm_plus. change (@nsum Rnum) with rsum. ring.
Qed.
Lemma least_squares_above r n cl1 x h : (0 <= r)%R -> (forall w c, In (w, c) cl1 -> (0 <= w)%R) ->
  (least_squares r n cl1 x + slope r n cl1 x h <= least_squares r n cl1 (fun i => x i + h i))%R.
Proof.
  intros Hr Hw. unfold least_squares, slope. rewrite (sqnorm_plus n x h). pose proof (sqnorm_nonneg n h) as P.
  assert (Z : (lsum (fun wc => task_cost wc x) cl1 + 2 * lsum (task_slope x h) cl1 <= lsum (fun wc => task_cost wc (fun i => x i + h i)%R) cl1)%R).
  { induction cl1 as [|[w c] l IH]; [unfold lsum; simpl; lra|]. rewrite !lsum_cons, task_plus. cbn [fst snd].
    pose proof (Hw w c (or_introl eq_refl)) as Hwc. pose proof (sqnorm_nonneg (mrows (c_mat c)) (qrow (c_mat c) h)) as Q.
    assert (T := IH (fun w' c' Hin => Hw w' c' (or_intror Hin))). pose proof (Rmult_le_pos _ _ Hwc Q). lra. }
  change (@nsum Rnum) with rsum. pose proof (Rmult_le_pos _ _ Hr P). lra.
Qed.
Lemma solve_reg_nonneg b : (0 <= solve_reg b)%R.
Proof. destruct b; cbn; lra. Qed.

Theorem multipliers_optimal b dbg jk s n cl0 cl1 ans x0 s' res x u z :
  usable b dbg n [cl0; cl1] s -> pwf n [cl0; cl1] -> solve b dbg jk s [cl0; cl1] ans x0 = Ret s' res ->
  (forall w c, In (w, c) cl1 -> (0 <= w)%R) -> hard_ok cl0 x -> multipliers b s' x u z ->
  forall y, hard_ok cl0 y -> (least_squares (solve_reg b) n cl1 x <= least_squares (solve_reg b) n cl1 y)%R.
Proof.
  intros U W H Hw Hx M y Hy.
  assert (Nb : b <> Qpmad) by (intros ->; exact M).
  pose proof (multipliers_price _ _ _ _ _ _ _ _ _ _ _ _ _ _ U W H M (fun i => y i - x i)%R) as P.
  destruct (solve_rows _ _ _ _ _ _ _ _ _ _ U W H cl0 eq_refl) as (R1 & R2 & L1 & L2).
  assert (N : q_n s' = n).
  { assert (U' := U). destruct U as (S & F & _). apply state_sized in S.
    destruct (prepare_ok b dbg jk s n [cl0; cl1] (default_flag b) S W F) as (s1 & E & N).
    { cbn [nth_error]. intros c0 H0; injection H0 as <-. eapply usable_ready; exact U'. }
    assert (H' := H). apply solve_prepare in H' as (s2 & E2 & -> & _). rewrite E in E2. injection E2 as <-. exact N. }
  assert (F : fits b (q_n s') [cl0; cl1]) by (rewrite N; apply (proj1 (proj2 U))).
  assert (Fe : forall v, hard_ok cl0 v -> qp_feasible b s' v).
  { intros v Hv. apply (solve_feasible _ _ _ _ _ _ _ _ _ _ (proj1 U) F H). split; [exact Hv|]. intros E; congruence. }
  pose proof (Fe x Hx) as Fx. pose proof (Fe y Hy) as Fy. clear Fe.
  assert (E : least_squares (solve_reg b) n cl1 (fun i => x i + (y i - x i))%R = least_squares (solve_reg b) n cl1 y).
  { replace (least_squares (solve_reg b) n cl1 (fun i => x i + (y i - x i))%R)
      with (least_squares (solve_reg b) n cl1 y); [reflexivity|].
    unfold least_squares. f_equal. f_equal.
    - apply lsum_ext. intros [w c] _. unfold task_cost. f_equal. apply sqnorm_ext. intros k _. unfold residual. cbn [fst snd]. f_equal.
      unfold qrow. apply rsum_ext. intros i _. ring.
    - f_equal. apply sqnorm_ext. intros i _. ring. }
  rewrite <- E. eapply Rle_trans; [|apply least_squares_above; [apply solve_reg_nonneg|exact Hw]].
  (* each listed row contributes a non-negative amount to the slope *)
  set (h := fun i => (y i - x i)%R) in *.
  assert (CE : forall k, k < length (eq_lines b cl0) -> line_change cl0 h (nth k (eq_lines b cl0) (0, 0, Exact)) = (qrow (q_CE s') y k - qrow (q_CE s') x k)%R).
  { intros k Hk. rewrite <- (ce_change b s' cl0 _ h k L1 Hk). apply qrow_minus. }
  assert (CI : forall k, k < length (in_lines b cl0) -> line_change cl0 h (nth k (in_lines b cl0) (0, 0, Exact)) = (qrow (q_CI s') y k - qrow (q_CI s') x k)%R).
  { intros k Hk. rewrite <- (ci_change b s' cl0 _ h k L2 Hk). apply qrow_minus. }
  assert (One : match b with Eiq | Fast | Rt _ _ _ => True | _ => False end -> (0 <= slope (solve_reg b) n cl1 x h)%R).
  { intros Hb.
    assert (P1 : slope (solve_reg b) n cl1 x h = (priced cl0 (eq_lines b cl0) u h + priced cl0 (in_lines b cl0) z h)%R)
      by (destruct b; try (destruct Hb); exact P).
    assert (R1' : mrows (q_CE s') = length (eq_lines b cl0)) by (destruct b; try (destruct Hb); exact R1).
    assert (Fx' : (forall k, k < mrows (q_CE s') -> (qrow (q_CE s') x k + vget (q_ce0 s') k = 0)%R) /\
                  (forall k, k < mrows (q_CI s') -> (0 <= qrow (q_CI s') x k + vget (q_cil s') k)%R)) by (destruct b; try (destruct Hb); exact Fx).
    assert (Fy' : (forall k, k < mrows (q_CE s') -> (qrow (q_CE s') y k + vget (q_ce0 s') k = 0)%R) /\
                  (forall k, k < mrows (q_CI s') -> (0 <= qrow (q_CI s') y k + vget (q_cil s') k)%R)) by (destruct b; try (destruct Hb); exact Fy).
    assert (M' : forall k, k < mrows (q_CI s') -> (0 <= z k /\ z k * (qrow (q_CI s') x k + vget (q_cil s') k) = 0)%R)
      by (destruct b; try (destruct Hb); apply M).
    rewrite P1. unfold priced. apply Rplus_le_le_0_compat.
    - apply Req_le. symmetry. apply rsum_zero. intros k Hk. rewrite CE by exact Hk. rewrite <- R1' in Hk.
      pose proof (proj1 Fx' k Hk) as A1. pose proof (proj1 Fy' k Hk) as A2.
      replace (qrow (q_CE s') y k - qrow (q_CE s') x k)%R with 0%R by lra. ring.
    - apply rsum_nonneg. intros k Hk. rewrite CI by exact Hk. rewrite <- R2 in Hk.
      pose proof (proj2 Fy' k Hk) as A2. destruct (M' k Hk) as [B1 B2].
      replace (z k * (qrow (q_CI s') y k - qrow (q_CI s') x k))%R
        with (z k * (qrow (q_CI s') y k + vget (q_cil s') k) - z k * (qrow (q_CI s') x k + vget (q_cil s') k))%R by ring.
      rewrite B2. pose proof (Rmult_le_pos _ _ B1 A2). lra. }
  assert (Two : two_sided_mult s' x z -> two_sided (q_CI s') (q_cil s') (q_ciu s') y -> (0 <= - priced cl0 (in_lines b cl0) z h)%R).
  { intros T Ty. unfold priced. rewrite <- rsum_opp. apply rsum_nonneg. intros k Hk. rewrite CI by exact Hk. rewrite <- R2 in Hk.
    destruct (T k Hk) as [T1 T2]. pose proof (Ty k Hk) as Y. destruct (Rtotal_order (z k) 0) as [Z|[Z|Z]].
    - rewrite (T2 Z). pose proof (Rmult_le_pos (- z k) (qrow (q_CI s') y k - vget (q_cil s') k)) as Q. lra.
    - rewrite Z. lra.
    - rewrite (T1 Z). pose proof (Rmult_le_pos (z k) (vget (q_ciu s') k - qrow (q_CI s') y k)) as Q. lra. }
  enough (0 <= slope (solve_reg b) n cl1 x h)%R by lra.
  destruct b; cbn [multipliers] in M; try (exact (One I)); try (destruct M; fail).
  - destruct M as [_ M]. cbn [qp_feasible] in Fx, Fy. specialize (Two M (proj2 Fy)). cbn [priced_slope] in P.
    assert (Z : priced cl0 (eq_lines Prox cl0) u h = 0%R).
    { unfold priced. apply rsum_zero. intros k Hk. rewrite CE by exact Hk. rewrite <- R1 in Hk.
      rewrite (proj1 Fx k Hk), (proj1 Fy k Hk). ring. }
    lra.
  - destruct M as [_ M]. cbn [qp_feasible] in Fx, Fy. specialize (Two M Fy).
    assert (Z : priced cl0 (eq_lines Osqp cl0) u h = 0%R).
    { assert (Q : eq_lines Osqp cl0 = []).
      { unfold eq_lines. generalize 0%nat. clear. induction cl0 as [|[w c] l IH]; intros j; [reflexivity|]. cbn [stack]. rewrite IH.
        unfold eq_lines1. destruct (c_kind c); reflexivity. }
      rewrite Q. reflexivity. }
    lra.
Qed.

(** A non-zero multiplier names a side that is reached. *)
Definition reached (c : constr Rnum) (x : nat -> R) (i : nat) (d : side) (v : R) : Prop :=
  match d with
  | Lower => (0 <= v)%R /\ (v <> 0%R -> lhs c x i = vget (c_lb c) i)
  | Upper => (0 <= v)%R /\ (v <> 0%R -> lhs c x i = vget (c_ub c) i)
  | Range => ((0 < v)%R -> lhs c x i = vget (c_ub c) i) /\ ((v < 0)%R -> lhs c x i = vget (c_lb c) i)
  | Exact => v <> 0%R -> lhs c x i = vget (c_vec c) i
  end.
Theorem multipliers_reached b dbg jk s n cl0 cl1 ans x0 s' res x u z :
  usable b dbg n [cl0; cl1] s -> pwf n [cl0; cl1] -> solve b dbg jk s [cl0; cl1] ans x0 = Ret s' res ->
  multipliers b s' x u z -> listed cl0 (fun k c i d => reached c x i d (z k)) (in_lines b cl0).
Proof.
  intros U W H M. destruct (solve_rows _ _ _ _ _ _ _ _ _ _ U W H cl0 eq_refl) as (_ & R2 & _ & L2).
  intros k j i d E. destruct (L2 k j i d E) as (w & c & Hc & Hi & R). exists w, c. split; [exact Hc|]. split; [exact Hi|].
  assert (Hk : k < mrows (q_CI s')) by (rewrite R2; apply nth_error_Some; congruence).
  assert (One : (forall k, k < mrows (q_CI s') -> (0 <= z k /\ z k * (qrow (q_CI s') x k + vget (q_cil s') k) = 0)%R) ->
     ((forall x, (qrow (q_CI s') x k + vget (q_cil s') k = lhs c x i - vget (c_lb c) i)%R) -> reached c x i Lower (z k)) /\
     ((forall x, (qrow (q_CI s') x k + vget (q_cil s') k = vget (c_ub c) i - lhs c x i)%R) -> reached c x i Upper (z k))).
  { intros M'. destruct (M' k Hk) as [M1 M2]. split; intros Q; (split; [exact M1|]); intros Z; rewrite Q in M2;
      apply Rmult_integral in M2 as [M2|M2]; try congruence; lra. }
  unfold multipliers, ci_row in *. destruct b, d; try (destruct R; fail); try (destruct M; fail).
  1,3,5: apply (proj1 (One (proj2 M))); exact R.
  1,2,3: apply (proj2 (One (proj2 M))); exact R.
  - destruct R as (Q & V1 & V2). destruct (proj2 M k Hk) as [M1 M2]. rewrite Q, ?V1, ?V2 in *. split; assumption.
  - destruct R as (Q & V1 & V2). destruct (proj2 M k Hk) as [M1 M2]. rewrite Q, V1, V2 in *.
    intros Z. destruct (Rtotal_order (z k) 0) as [A|[A|A]]; auto. congruence.
  - destruct R as (Q & V1 & V2). destruct (proj2 M k Hk) as [M1 M2]. rewrite Q, ?V1, ?V2 in *. split; assumption.
Qed.

(** The QP has no other multipliers than the user's. *)
Definition unit_at (i : nat) : nat -> R := fun k => if k =? i then 1%R else 0%R.
Lemma rsum_unit n i (f : nat -> R) : i < n -> rsum n (fun k => unit_at i k * f k)%R = f i.
Proof.
  intros Hi. rewrite (rsum_single n i _ Hi).
  - unfold unit_at. rewrite Nat.eqb_refl. apply Rmult_1_l.
  - intros k _ Hk. unfold unit_at. destruct (Nat.eqb_spec k i) as [E|_]; [destruct (Hk E)|]. apply Rmult_0_l.
Qed.
Theorem multipliers_iff b dbg jk s n cl0 cl1 ans x0 s' res x u z : b <> Qpmad ->
  usable b dbg n [cl0; cl1] s -> pwf n [cl0; cl1] -> solve b dbg jk s [cl0; cl1] ans x0 = Ret s' res ->
  multipliers b s' x u z <->
  priced_slope b n cl0 cl1 x u z /\ listed cl0 (fun k c i d => reached c x i d (z k)) (in_lines b cl0).
Proof.
  intros Nb U W H. split.
  { intros M. split; [eapply multipliers_price; eauto|eapply multipliers_reached; eauto]. }
  intros [P T]. destruct (solve_rows _ _ _ _ _ _ _ _ _ _ U W H cl0 eq_refl) as (R1 & R2 & L1 & L2).
  assert (St : forall i, i < q_n s' ->
     match b with
     | Eiq | Fast | Rt _ _ _ => (qrow (q_H s') x i + vget (q_g s') i = tdot (q_CE s') u i + tdot (q_CI s') z i)%R
     | Prox => (qrow (q_H s') x i + vget (q_g s') i + tdot (q_CE s') u i + tdot (q_CI s') z i = 0)%R
     | Osqp => (qrow (q_H s') x i + vget (q_g s') i + tdot (q_CI s') z i = 0)%R
     | Qpmad => True
     end).
  { intros i Hi. destruct (price_parts _ _ _ _ _ _ _ _ _ _ _ x u z (unit_at i) U W H) as (G & PI & PE). specialize (P (unit_at i)).
    rewrite G in P. rewrite rsum_unit in P, PI by exact Hi.
    destruct b; auto; try (specialize (PE I); rewrite rsum_unit in PE by exact Hi; lra).
    rewrite eq_lines_osqp in P. change (priced cl0 [] u (unit_at i)) with 0%R in P. lra. }
  assert (Row : forall k, k < mrows (q_CI s') -> exists w c j i d, nth_error cl0 j = Some (w, c) /\
     ci_row b s' k c i d /\ reached c x i d (z k)).
  { intros k Hk. rewrite R2 in Hk. destruct (nth_error (in_lines b cl0) k) as [[[j i] d]|] eqn:E.
    - destruct (T _ _ _ _ E) as (w & c & Hc & _ & A). destruct (L2 _ _ _ _ E) as (w' & c' & Hc' & _ & B).
      rewrite Hc in Hc'. injection Hc' as <- <-. exists w, c, j, i, d. auto.
    - apply nth_error_None in E. lia. }
  assert (One : match b with Eiq | Fast | Rt _ _ _ => True | _ => False end ->
     forall k, k < mrows (q_CI s') -> (0 <= z k /\ z k * (qrow (q_CI s') x k + vget (q_cil s') k) = 0)%R).
  { intros Hb k Hk. destruct (Row k Hk) as (w & c & j & i & d & _ & A & B).
    assert (A' : match d with Lower => forall x, (qrow (q_CI s') x k + vget (q_cil s') k = lhs c x i - vget (c_lb c) i)%R
                 | Upper => forall x, (qrow (q_CI s') x k + vget (q_cil s') k = vget (c_ub c) i - lhs c x i)%R | _ => False end)
      by (destruct b, d; try (destruct Hb); exact A).
    destruct d; try (destruct A'; fail); destruct B as [B1 B2]; (split; [exact B1|]); rewrite A';
      (destruct (Req_dec (z k) 0) as [Z|Z]; [rewrite Z; ring|rewrite (B2 Z); ring]). }
  assert (Two : match b with Prox | Osqp => True | _ => False end -> two_sided_mult s' x z).
  { intros Hb k Hk. destruct (Row k Hk) as (w & c & j & i & d & _ & A & B).
    destruct b; try (destruct Hb); destruct d; try (destruct A; fail); destruct A as (Q & V1 & V2); rewrite Q, V1, V2.
    - exact B.
    - split; intros Z; apply B; lra.
    - exact B. }
  destruct b; cbn [multipliers]; try congruence.
  1,2,3: split; [exact St|exact (One I)].
  all: split; [exact St|exact (Two I)].
Qed.
