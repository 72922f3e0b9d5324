(** The messages a debug build prints after an optimal solve: eiq:232-260, fast:181-209,
    rt:169-196, prox:191-219, osqp:218-247, qpmad:160-187 (abbreviations as in Solvers.v), which
    are the same loop over level 0.  Not modelled: how a number is printed. *)
From Coq Require Import String List Arith Bool Reals Lia Lra QArith Qreals.
From Verif Require Import Scalar Outcome Linalg Constraint FormPhysSpec RSum Solvers SolverSpec SolverSizes SolverSem SolverCost Check.
Import ListNotations.
Open Scope nat_scope.

(** "Equality NAME violated: v", "Inequality NAME violated: lo \n up", "Bound NAME violated: ..." *)
Record msg (K : num) := mkMsg { m_kind : ckind; m_name : string; m_lo : K; m_up : K }.
Arguments mkMsg {K}. Arguments m_kind {K}. Arguments m_name {K}. Arguments m_lo {K}. Arguments m_up {K}.

Section Model.
Context {K : num}.
Variable sq : K -> K.
(** v.minCoeff(), asserted non-empty. *)
Fixpoint min_upto (f : nat -> K) (n : nat) : K := match n with O => f 0 | S n' => nmin (min_upto f n') (f n) end.
Definition min_coeff (v : vec K) : option K := match vlen v with O => None | S n => Some (min_upto (vget v) n) end.
(** Default argument of checkConstraint, include/tsid/math/constraint-base.hpp:58. *)
Definition check_tol : K := nofQ (1 # 1000000).
Definition explain (c : constr K) (x : vec K) : option (msg K) :=
  match c_kind c with
  | CEq => do y <- mvec (c_mat c) x; do r <- vsub y (c_vec c); Some (mkMsg CEq (c_name c) (norm sq r) n0)
  | CIneq =>
      do y <- mvec (c_mat c) x;
      do a <- vsub y (c_lb c); do a' <- min_coeff a;
      do b <- vsub (c_ub c) y; do b' <- min_coeff b;
      Some (mkMsg CIneq (c_name c) a' b')
  | CBound =>
      do a <- vsub x (c_lb c); do a' <- min_coeff a;
      do b <- vsub (c_ub c) x; do b' <- min_coeff b;
      Some (mkMsg CBound (c_name c) a' b')
  end.
Fixpoint report (l : level K) (x : vec K) : option (list (msg K)) :=
  match l with
  | [] => Some []
  | (_, c) :: l' =>
      do ok <- check sq c x check_tol;
      if (ok : bool) then report l' x
      else do m <- explain c x; do ms <- report l' x; Some (m :: ms)
  end.
(** What a call of solve prints about the constraints: nothing in a release build
    (#ifndef NDEBUG), nothing unless the library reports an optimum. *)
Definition messages (dbg optimal : bool) (cl0 : level K) (x : vec K) : option (list (msg K)) :=
  if dbg && optimal then report cl0 x else Some [].
(** Which answers of the library lead to the loop: eiq:228, fast:172, rt:160, prox:184, osqp:213,
    qpmad:155; cl0 is problemData[0] and x is the library's solution in all of them. *)
Definition solved (b : backend) : code b -> bool :=
  match b return code b -> bool with
  | Eiq => fun inf => negb inf
  | Fast => fun c => match c with F_optimal => true | _ => false end
  | Rt _ _ _ => fun c => match c with F_optimal => true | _ => false end
  | Prox => fun c => match c with P_solved => true | _ => false end
  | Osqp => fun c => match c with O_solved => true | _ => false end
  | Qpmad => fun c => match c with Q_ok => true | _ => false end
  end.
Definition printed (b : backend) (dbg : bool) (P : hqpdata K) (ans : code b) (x : vec K) : option (list (msg K)) :=
  match P with [] => None | cl0 :: _ => messages dbg (solved b ans) cl0 x end.
End Model.

(** Specification. *)
Definition least (P : nat -> R -> Prop) (n : nat) (v : R) : Prop :=
  (exists i, i < n /\ P i v) /\ forall i w, i < n -> P i w -> (v <= w)%R.
Definition describes (c : constr Rnum) (x : nat -> R) (m : msg Rnum) : Prop :=
  m_name m = c_name c /\ m_kind m = c_kind c /\
  match c_kind c with
  | CEq => m_lo m = sqrt (sqnorm (vlen (c_vec c)) (fun i => lhs c x i - vget (c_vec c) i)%R) /\ (/ 1000000 <= m_lo m)%R
  | _ => least (fun i v => v = (lhs c x i - vget (c_lb c) i)%R) (vlen (c_lb c)) (m_lo m) /\
         least (fun i v => v = (vget (c_ub c) i - lhs c x i)%R) (vlen (c_lb c)) (m_up m) /\
         (m_lo m < - / 1000000 \/ m_up m < - / 1000000)%R
  end.
Inductive reports (x : nat -> R) : level Rnum -> list (msg Rnum) -> Prop :=
| rep_nil : reports x [] []
| rep_ok w c l ms : within c x (/ 1000000) -> reports x l ms -> reports x ((w, c) :: l) ms
| rep_bad w c l m ms : ~ within c x (/ 1000000) -> describes c x m -> reports x l ms -> reports x ((w, c) :: l) (m :: ms).

#[local] Opaque nsum.
Lemma tol_value : @check_tol Rnum = (/ 1000000)%R.
Proof. unfold check_tol. cbn. unfold Q2R. cbn. lra. Qed.
Lemma min_upto_spec (f : nat -> R) n : (exists i, i < S n /\ min_upto (K:=Rnum) f n = f i) /\ forall i, i < S n -> (min_upto (K:=Rnum) f n <= f i)%R.
Proof.
  induction n as [|n [(i & Hi & E) IH]]; cbn [min_upto].
  - split; [exists 0; auto|]. intros i Hi. replace i with 0 by lia. apply Rle_refl.
  - unfold nmin. cbn [nltb Rnum]. destruct (Rltb (f (S n)) (min_upto (K:=Rnum) f n)) eqn:L.
    + apply Rltb_true in L. split; [exists (S n); auto|]. intros k Hk. destruct (Nat.eq_dec k (S n)) as [->|]; [apply Rle_refl|].
      assert (k < S n) as Hk' by lia. specialize (IH k Hk'). lra.
    + apply Rltb_false in L. split; [exists i; split; [lia|exact E]|]. intros k Hk. destruct (Nat.eq_dec k (S n)) as [->|]; [exact L|].
      apply IH. lia.
Qed.
Lemma min_coeff_least (v : vec Rnum) n (g : nat -> R) : vlen v = n -> 0 < n -> (forall i, i < n -> vget v i = g i) ->
  exists m, min_coeff v = Some m /\ least (fun i w => w = g i) n m.
Proof.
  intros L Hn G. unfold min_coeff. rewrite L. destruct n as [|n]; [lia|]. eexists. split; [reflexivity|].
  destruct (min_upto_spec (vget v) n) as [(i & Hi & E) A]. split.
  - exists i. split; [exact Hi|]. rewrite <- G by exact Hi. exact E.
  - intros k w Hk ->. rewrite <- G by exact Hk. apply A. exact Hk.
Qed.
Lemma not_within_rows c x : c_kind c <> CEq -> ~ within c x (/ 1000000) ->
  exists i, i < vlen (c_lb c) /\ (lhs c x i - vget (c_lb c) i < - / 1000000 \/ vget (c_ub c) i - lhs c x i < - / 1000000)%R.
Proof.
  intros Hk H. unfold within in H.
  assert (D : forall n, (forall i, i < n -> (vget (c_lb c) i - / 1000000 <= lhs c x i <= vget (c_ub c) i + / 1000000)%R) \/
     exists i, i < n /\ (lhs c x i - vget (c_lb c) i < - / 1000000 \/ vget (c_ub c) i - lhs c x i < - / 1000000)%R).
  { induction n as [|n [IH|(i & Hi & IH)]]; [left; intros i Hi; lia| |right; exists i; split; [lia|exact IH]].
    destruct (Rle_dec (vget (c_lb c) n - / 1000000) (lhs c x n)) as [A|A];
      [destruct (Rle_dec (lhs c x n) (vget (c_ub c) n + / 1000000)) as [B|B]|].
    - left. intros i Hi. destruct (Nat.eq_dec i n) as [->|]; [split; assumption|apply IH; lia].
    - right. exists n. split; [lia|]. right. lra.
    - right. exists n. split; [lia|]. left. lra. }
  destruct (D (vlen (c_lb c))) as [D'|D']; [|exact D']. exfalso. apply H. destruct (c_kind c); [congruence|exact D'|exact D'].
Qed.
Lemma explained n c (x : vec Rnum) : cwf n c -> vlen x = n -> ~ within c (vget x) (/ 1000000) ->
  exists m, explain sqrt c x = Some m /\ describes c (vget x) m.
Proof.
  intros W L H. unfold describes. destruct (c_kind c) eqn:Ek.
  - assert (W' := W). unfold cwf in W. unfold explain, within, lhs in *. rewrite Ek in *.
    destruct W as [W1 W2]. unfold mvec. rewrite W1, L, Nat.eqb_refl. cbn [obind].
    unfold vsub. cbn [vlen vget]. rewrite <- W2, Nat.eqb_refl. cbn [obind]. eexists. split; [reflexivity|].
    cbn [m_name m_kind m_lo]. split; [reflexivity|]. split; [reflexivity|]. unfold norm, sqnorm. cbn [vlen vget].
    rewrite <- W1. split; [reflexivity|]. unfold sqnorm in H. apply Rnot_lt_le. exact H.
  - destruct (not_within_rows c (vget x)) as (i & Hi & B); [congruence|exact H|].
    unfold cwf in W. unfold explain. rewrite Ek in *. destruct W as (W1 & W2 & W3). unfold mvec. rewrite W1, L, Nat.eqb_refl. cbn [obind].
    assert (Q : forall k, @nsum Rnum n (fun k0 => (mget (c_mat c) k k0 * vget x k0)%num) = lhs c (vget x) k).
    { intros k. unfold lhs. rewrite Ek, W1. reflexivity. }
    unfold vsub. cbn [vlen vget]. rewrite <- W2, Nat.eqb_refl. cbn [obind].
    match goal with |- context [min_coeff ?v] =>
      destruct (min_coeff_least v (vlen (c_lb c)) (fun k => lhs c (vget x) k - vget (c_lb c) k)%R) as (lo & E1 & S1) end;
      [reflexivity|lia|intros k _; cbn [vget]; rewrite Q; reflexivity|].
    rewrite E1. cbn [obind]. rewrite W3, <- W2, Nat.eqb_refl. cbn [obind].
    match goal with |- context [min_coeff ?v] =>
      destruct (min_coeff_least v (vlen (c_lb c)) (fun k => vget (c_ub c) k - lhs c (vget x) k)%R) as (up & E2 & S2) end;
      [cbn [vlen]; congruence|lia|intros k _; cbn [vget]; rewrite Q; reflexivity|].
    rewrite E2. cbn [obind]. eexists. split; [reflexivity|]. cbn [m_name m_kind m_lo m_up].
    split; [reflexivity|]. split; [reflexivity|]. split; [exact S1|]. split; [exact S2|].
    destruct B as [B|B]; [left|right].
    + apply Rle_lt_trans with (2 := B). apply (proj2 S1 i _ Hi eq_refl).
    + apply Rle_lt_trans with (2 := B). apply (proj2 S2 i _ Hi eq_refl).
  - destruct (not_within_rows c (vget x)) as (i & Hi & B); [congruence|exact H|].
    unfold cwf in W. unfold explain. rewrite Ek in *. destruct W as (W2 & W3).
    assert (Q : forall k, vget x k = lhs c (vget x) k) by (intros k; unfold lhs; rewrite Ek; reflexivity).
    unfold vsub. rewrite L, W2, W3, Nat.eqb_refl. cbn [obind].
    match goal with |- context [min_coeff ?v] =>
      destruct (min_coeff_least v (vlen (c_lb c)) (fun k => lhs c (vget x) k - vget (c_lb c) k)%R) as (lo & E1 & S1) end;
      [cbn [vlen]; congruence|lia|intros k _; cbn [vget]; rewrite <- Q; reflexivity|].
    rewrite E1. cbn [obind].
    match goal with |- context [min_coeff ?v] =>
      destruct (min_coeff_least v (vlen (c_lb c)) (fun k => vget (c_ub c) k - lhs c (vget x) k)%R) as (up & E2 & S2) end;
      [cbn [vlen]; congruence|lia|intros k _; cbn [vget]; rewrite <- Q; reflexivity|].
    rewrite E2. cbn [obind]. rewrite W2 in S1, S2. eexists. split; [reflexivity|]. cbn [m_name m_kind m_lo m_up].
    split; [reflexivity|]. split; [reflexivity|]. split; [exact S1|]. split; [exact S2|]. rewrite W2 in Hi.
    destruct B as [B|B]; [left|right].
    + apply Rle_lt_trans with (2 := B). apply (proj2 S1 i _ Hi eq_refl).
    + apply Rle_lt_trans with (2 := B). apply (proj2 S2 i _ Hi eq_refl).
Qed.
Theorem report_spec n (cl0 : level Rnum) (x : vec Rnum) : lwf n cl0 -> vlen x = n ->
  exists ms, messages sqrt true true cl0 x = Some ms /\ reports (vget x) cl0 ms.
Proof.
  intros W L. unfold messages. cbn [andb]. induction cl0 as [|[w c] l IH]; cbn [report].
  - exists []. split; [reflexivity|constructor].
  - destruct IH as (ms & E & R); [intros w' c' Hin; apply (W w'); right; exact Hin|].
    assert (Wc : cwf n c) by (apply (W w); left; reflexivity).
    rewrite tol_value. destruct (check_within n c x (/ 1000000) Wc L) as (ok & -> & Hok). cbn [obind]. destruct ok.
    + exists ms. split; [exact E|]. constructor; [apply Hok; reflexivity|exact R].
    + assert (NW : ~ within c (vget x) (/ 1000000)) by (intros H; apply Hok in H; discriminate).
      destruct (explained n c x Wc L NW) as (m & Em & D). rewrite Em, E. cbn [obind]. exists (m :: ms).
      split; [reflexivity|]. constructor; assumption.
Qed.
Theorem report_silent n (cl0 : level Rnum) (x : vec Rnum) : lwf n cl0 -> vlen x = n ->
  messages sqrt true true cl0 x = Some [] <-> forall w c, In (w, c) cl0 -> within c (vget x) (/ 1000000).
Proof.
  intros W L. destruct (report_spec n cl0 x W L) as (ms & E & R). rewrite E. split.
  - intros H; injection H as ->. clear E W. induction cl0 as [|[w c] l IH]; [intros w c []|].
    inversion R; subst. intros w' c' [Q|Q]; [injection Q as <- <-; assumption|]. eapply IH; eauto.
  - intros H. f_equal. clear E W. induction R as [|w c l ms Hw R IH|w c l m ms Hw D R IH]; [reflexivity| |].
    + apply IH. intros w' c' Hin. apply (H w'). right; exact Hin.
    + exfalso. apply Hw. apply (H w). left; reflexivity.
Qed.
Theorem report_exact n (cl0 : level Rnum) (x : vec Rnum) dbg opt : lwf n cl0 -> vlen x = n -> hard_ok cl0 (vget x) ->
  messages sqrt dbg opt cl0 x = Some [].
Proof.
  intros W L H. destruct dbg, opt; try reflexivity. apply (report_silent n cl0 x W L). intros w c Hin.
  apply sat_within; [lra|apply (H w); exact Hin].
Qed.

Lemma solved_optimum b ans : solved b ans = true <-> optimum b ans.
Proof. destruct b; cbn; destruct ans; cbn; split; (reflexivity || discriminate). Qed.
(** Messages of a call of solve. *)
Theorem printed_spec b n cl0 P (ans : code b) (x : vec Rnum) : lwf n cl0 -> vlen x = n -> optimum b ans ->
  exists ms, printed sqrt b true (cl0 :: P) ans x = Some ms /\ reports (vget x) cl0 ms.
Proof. intros W L O. apply solved_optimum in O. unfold printed. rewrite O. apply (report_spec n); assumption. Qed.
Theorem printed_quiet b dbg cl0 P (ans : code b) (x : vec Rnum) : dbg = false \/ ~ optimum b ans ->
  printed sqrt b dbg (cl0 :: P) ans x = Some [].
Proof.
  intros H. unfold printed, messages. destruct dbg; [|reflexivity]. destruct H as [H|H]; [discriminate|].
  destruct (solved b ans) eqn:E; [|reflexivity]. apply solved_optimum in E. destruct (H E).
Qed.
Theorem printed_silent b n cl0 P (ans : code b) (x : vec Rnum) : lwf n cl0 -> vlen x = n -> optimum b ans ->
  printed sqrt b true (cl0 :: P) ans x = Some [] <-> forall w c, In (w, c) cl0 -> within c (vget x) (/ 1000000).
Proof. intros W L O. apply solved_optimum in O. unfold printed. rewrite O. apply (report_silent n); assumption. Qed.
Theorem printed_exact b dbg n cl0 P (ans : code b) (x : vec Rnum) : lwf n cl0 -> vlen x = n -> hard_ok cl0 (vget x) ->
  printed sqrt b dbg (cl0 :: P) ans x = Some [].
Proof. intros W L H. unfold printed. apply (report_exact n); assumption. Qed.
