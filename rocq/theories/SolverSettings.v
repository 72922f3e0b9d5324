(** Settings of the QP back-ends and the copy constructor of SolverOSQP:
    solvers/solver-HQP-base.cpp, solver-HQP-base.hpp:62-77, and the setters of
    solver-HQP-eiquadprog-fast.cpp (fast), solver-HQP-eiquadprog-rt.hxx (rt),
    solver-proxqp.cpp (prox), solver-osqp.cpp (osqp).  The six classes are those of
    Solvers.v; here their calls are interleaved with the setters. *)
From Coq Require Import List Arith Bool QArith Lia.
From Verif Require Import Scalar Outcome Linalg Constraint Solvers SolverSpec SolverSizes.
Import ListNotations.
Open Scope nat_scope.

Section Settings.
Context {K : num}.
Variable b : backend.
Variable dbg : bool.

(** Numeric parameters: prox has rho, muIn, muEq, epsAbs, epsRel, osqp sigma, alpha, rho,
    epsAbs, epsRel. *)
Inductive par := Rho | MuIn | MuEq | Sigma | Alpha | EpsAbs | EpsRel.
Definition par_eqb (p q : par) : bool :=
  match p, q with
  | Rho, Rho | MuIn, MuIn | MuEq, MuEq | Sigma, Sigma | Alpha, Alpha | EpsAbs, EpsAbs | EpsRel, EpsRel => true
  | _, _ => false
  end.
Definition has_par (p : par) : bool :=
  match b, p with
  | Prox, (Rho | MuIn | MuEq | EpsAbs | EpsRel) => true
  | Osqp, (Sigma | Alpha | Rho | EpsAbs | EpsRel) => true
  | _, _ => false
  end.
Definition tuned : bool := match b with Prox | Osqp => true | _ => false end.

(** What the library behind the class uses when nothing was set, and which numbers of
    iterations EiquadprogFast/RtEiquadprog::setMaxIter accept. *)
Record library := mkLib { l_iter : nat; l_par : par -> K; l_verb : bool; l_accepts : nat -> bool }.
Variable lib : library.

(** [t_...]: members of the class (m_maxIter, m_maxTime, m_useWarmStart, m_rho, ...,
    m_isVerbose); [u_...]: settings held by the library object m_solver, and the sizes it was
    made for. *)
Record sset := mkT {
  t_iter : nat; t_time : K; t_warm : bool; t_par : par -> K; t_verb : bool;
  u_iter : nat; u_par : par -> K; u_verb : bool; u_sizes : nat * nat * nat }.

(** Constructors: base:16-21, prox:14-28 (m_solver(1, 0, 0)), osqp:14-27. *)
Definition par0 (p : par) : K :=
  nofQ (match b, p with
        | Osqp, Rho => 1 # 10
        | _, Rho => 1 # 1000000
        | _, MuIn => 1 # 10
        | _, MuEq => 1 # 1000
        | _, Sigma => 1 # 1000000
        | _, Alpha => 8 # 5
        | _, EpsAbs => 1 # 100000
        | _, EpsRel => 0
        end)%Q.
Definition time0 : K := nofQ 100.
Definition set_new : sset := mkT 1000 time0 true par0 false (l_iter lib) (l_par lib) (l_verb lib) (1, 0, 0).

Definition fupd (f : par -> K) (p : par) (x : K) : par -> K := fun q => if par_eqb p q then x else f q.
Definition w_iter t n := mkT n (t_time t) (t_warm t) (t_par t) (t_verb t) (u_iter t) (u_par t) (u_verb t) (u_sizes t).
Definition w_uiter t n := mkT (t_iter t) (t_time t) (t_warm t) (t_par t) (t_verb t) n (u_par t) (u_verb t) (u_sizes t).
(** base:23-27; fast:224-227 and rt:213-217 (base result ignored, library's result returned);
    prox:235-239 and osqp:265-269 (base result ignored, true returned); eiq and qpmad inherit.
    The conversion int(maxIter) of osqp is the identity here. *)
Definition set_iter (t : sset) (n : nat) : sset * bool :=
  let t1 := if n =? 0 then t else w_iter t n in
  match b with
  | Eiq | Qpmad => (t1, negb (n =? 0))
  | Fast | Rt _ _ _ => if l_accepts lib n then (w_uiter t1 n, true) else (t1, false)
  | Prox | Osqp => (w_uiter t1 n, true)
  end.
(** base:29-33 *)
Definition set_time (t : sset) (x : K) : sset * bool :=
  if (x <=? n0)%num then (t, false)
  else (mkT (t_iter t) x (t_warm t) (t_par t) (t_verb t) (u_iter t) (u_par t) (u_verb t) (u_sizes t), true).
(** base.hpp:64-67 *)
Definition set_warm (t : sset) (w : bool) : sset :=
  mkT (t_iter t) (t_time t) w (t_par t) (t_verb t) (u_iter t) (u_par t) (u_verb t) (u_sizes t).
(** prox:241-260, osqp:271-291 *)
Definition set_par (t : sset) (p : par) (x : K) : sset :=
  if has_par p
  then mkT (t_iter t) (t_time t) (t_warm t) (fupd (t_par t) p x) (t_verb t) (u_iter t) (fupd (u_par t) p x) (u_verb t) (u_sizes t)
  else t.
(** prox:261-264, osqp:292-295 *)
Definition set_verb (t : sset) (v : bool) : sset :=
  if tuned then mkT (t_iter t) (t_time t) (t_warm t) (t_par t) v (u_iter t) (u_par t) v (u_sizes t) else t.

(** The end of resize, prox:69-81 (a new library object) and osqp:71-91 (the same object, which
    keeps its settings), when a size changed.  fast:63 resets its library object: supposed to
    keep the number of iterations. *)
Definition again (t : sset) (p : par) : sset := set_par t p (t_par t p).
Definition w_lib t i f v n neq nin := mkT (t_iter t) (t_time t) (t_warm t) (t_par t) (t_verb t) i f v (n, neq, nin).
Definition refresh (t : sset) (n neq nin : nat) : sset :=
  match b with
  | Prox =>
      let t := w_lib t (l_iter lib) (l_par lib) (l_verb lib) n neq nin in
      let t := fst (set_iter t (t_iter t)) in
      let t := fold_left again [MuIn; MuEq; Rho; EpsAbs; EpsRel] t in
      let t := set_verb t (t_verb t) in
      if dbg then set_verb t true else t
  | Osqp =>
      let t := w_lib t (u_iter t) (u_par t) (u_verb t) n neq nin in
      let t := if dbg then set_verb t true else t in
      let t := fst (set_iter t (t_iter t)) in
      let t := fold_left again [Sigma; Alpha; Rho; EpsAbs; EpsRel] t in
      set_verb t (t_verb t)
  | _ => t
  end.
Definition sizes (q : sst K) : nat * nat * nat := (q_n q, q_neq q, q_nin q).
Definition same_sizes (q q' : sst K) : bool := (q_n q =? q_n q') && (q_neq q =? q_neq q') && (q_nin q =? q_nin q').
Definition refreshed (q q' : sst K) (t : sset) : sset := if same_sizes q q' then t else refresh t (q_n q') (q_neq q') (q_nin q').

(** Calls on one solver object: those of Solvers.v and the setters. *)
Inductive cop := CCall (o : sop K b) | CIter (n : nat) | CTime (x : K) | CWarm (w : bool) | CPar (p : par) (x : K) | CVerb (v : bool).
Definition cst := (sst K * sset)%type.
Definition cstep (s : cst) (o : cop) : outcome cst bool :=
  let '(q, t) := s in
  match o with
  | CCall o => match sstep b dbg q o with
               | Ret q' _ => Ret (q', refreshed q q' t) true
               | Exc q' => Exc (q', refreshed q q' t)
               | Undef => Undef
               end
  | CIter n => let '(t, r) := set_iter t n in Ret (q, t) r
  | CTime x => let '(t, r) := set_time t x in Ret (q, t) r
  | CWarm w => Ret (q, set_warm t w) true
  | CPar p x => Ret (q, set_par t p x) true
  | CVerb v => Ret (q, set_verb t v) true
  end.
Definition cnew (jk : junk K) (hb : bool) (st : status) : cst := (solver_new b jk hb st, set_new).

(** * Specification: the last acceptable request *)
Fixpoint asked {A} (f : cop -> option A) (a : A) (l : list cop) : A :=
  match l with [] => a | o :: l => asked f (match f o with Some x => x | None => a end) l end.
Definition ask_iter (o : cop) : option nat := match o with CIter n => if n =? 0 then None else Some n | _ => None end.
Definition ask_time (o : cop) : option K := match o with CTime x => if (x <=? n0)%num then None else Some x | _ => None end.
Definition ask_warm (o : cop) : option bool := match o with CWarm w => Some w | _ => None end.
Definition ask_par (p : par) (o : cop) : option K := match o with CPar q x => if par_eqb q p then Some x else None | _ => None end.
Definition ask_verb (o : cop) : option bool := match o with CVerb v => Some v | _ => None end.
Definition no_zero (o : cop) : Prop := o <> CIter 0.
(** The parameters of the two classes and their documented initial values. *)
Definition initial (p : par) : option Q :=
  match b with
  | Prox => match p with Rho => Some (1 # 1000000) | MuIn => Some (1 # 10) | MuEq => Some (1 # 1000)
            | EpsAbs => Some (1 # 100000) | EpsRel => Some (0 # 1) | _ => None end
  | Osqp => match p with Rho => Some (1 # 10) | Sigma => Some (1 # 1000000) | Alpha => Some (8 # 5)
            | EpsAbs => Some (1 # 100000) | EpsRel => Some (0 # 1) | _ => None end
  | _ => None
  end.

(** * Proofs *)
Lemma par_eqb_eq p q : par_eqb p q = true <-> p = q.
Proof. destruct p, q; cbn; split; (reflexivity || discriminate || congruence). Qed.
Lemma asked_app {A} (f : cop -> option A) a l o : asked f a (l ++ [o]) = match f o with Some x => x | None => asked f a l end.
Proof. revert a; induction l as [|c l IH]; intros a; cbn; [reflexivity|]. apply IH. Qed.

(** What refresh leaves. *)
Definition kept (t : sset) := (t_iter t, t_time t, t_warm t, t_verb t, (u_iter t, u_verb t, u_sizes t)).
Lemma kept_eq t t' : kept t = kept t' -> t_iter t = t_iter t' /\ t_time t = t_time t' /\ t_warm t = t_warm t' /\ t_verb t = t_verb t' /\
  u_iter t = u_iter t' /\ u_verb t = u_verb t' /\ u_sizes t = u_sizes t'.
Proof. unfold kept. intros H. injection H. auto 10. Qed.
Lemma again_one t p : kept (again t p) = kept t /\ (forall q, t_par (again t p) q = t_par t q) /\
  (forall q, u_par (again t p) q = if has_par p && par_eqb p q then t_par t p else u_par t q).
Proof.
  unfold again, set_par, kept. destruct (has_par p); cbn [t_iter t_time t_warm t_par t_verb u_iter u_par u_verb u_sizes andb]; [|auto].
  split; [reflexivity|]. split; [|reflexivity]. intros q. unfold fupd. destruct (par_eqb p q) eqn:E; [|reflexivity].
  apply par_eqb_eq in E. rewrite E. reflexivity.
Qed.
Lemma again_all ps : forall t, kept (fold_left again ps t) = kept t /\ (forall q, t_par (fold_left again ps t) q = t_par t q) /\
  (forall q, has_par q = true -> In q ps \/ u_par t q = t_par t q -> u_par (fold_left again ps t) q = t_par t q).
Proof.
  induction ps as [|p ps IH]; intros t; cbn [fold_left].
  - split; [reflexivity|]. split; [reflexivity|]. intros q _ [[]|H]. exact H.
  - destruct (IH (again t p)) as (A & B & C). destruct (again_one t p) as (D & E & F).
    split; [congruence|]. split; [intros q; rewrite B; apply E|]. intros q Hq H. rewrite <- (E q).
    apply C; [exact Hq|]. rewrite E, F. destruct (par_eqb p q) eqn:X.
    + apply par_eqb_eq in X. subst q. right. rewrite Hq. reflexivity.
    + rewrite andb_false_r. destruct H as [[H|H]|H]; [|left; exact H|right; exact H].
      apply par_eqb_eq in H. congruence.
Qed.
Lemma refresh_t t n e i : 0 < t_iter t -> let t' := refresh t n e i in
  t_iter t' = t_iter t /\ t_time t' = t_time t /\ t_warm t' = t_warm t /\ (forall p, t_par t' p = t_par t p) /\
  (dbg = false -> t_verb t' = t_verb t) /\
  (tuned = true -> u_iter t' = t_iter t' /\ (forall p, has_par p = true -> u_par t' p = t_par t' p) /\ u_verb t' = t_verb t' /\
     (dbg = true -> t_verb t' = true) /\ u_sizes t' = (n, e, i)) /\
  (tuned = false -> t' = t).
Proof.
  intros H0. assert (Hz : (t_iter t =? 0) = false) by (apply Nat.eqb_neq; lia). cbv zeta.
  destruct tuned eqn:T; [|assert (X : refresh t n e i = t) by (unfold refresh, tuned in *; destruct b; try discriminate; reflexivity);
    rewrite X; repeat split; try reflexivity; discriminate].
  assert (G : exists t1 ps, (forall p, has_par p = true -> In p ps) /\ t_iter t1 = t_iter t /\ t_time t1 = t_time t /\ t_warm t1 = t_warm t /\
    (forall p, t_par t1 p = t_par t p) /\ (dbg = false -> t_verb t1 = t_verb t) /\ u_iter t1 = t_iter t /\ u_sizes t1 = (n, e, i) /\
    exists v, refresh t n e i = set_verb (fold_left again ps t1) v /\ (dbg = true -> v = true) /\ (dbg = false -> v = t_verb (fold_left again ps t1))).
  { unfold refresh, tuned in *. destruct b eqn:B; try discriminate T.
    - pose (t0 := w_lib t (l_iter lib) (l_par lib) (l_verb lib) n e i). pose (t1 := w_uiter (w_iter t0 (t_iter t)) (t_iter t)).
      assert (S : fst (set_iter t0 (t_iter t0)) = t1) by (unfold set_iter; rewrite B; cbn [t0 w_lib t_iter]; rewrite Hz; reflexivity).
      exists t1, [MuIn; MuEq; Rho; EpsAbs; EpsRel].
      split; [unfold has_par; rewrite B; intros []; cbn; intros X; try discriminate X; auto 8|].
      do 7 (split; [reflexivity|]).
      cbv zeta. change (w_lib t (l_iter lib) (l_par lib) (l_verb lib) n e i) with t0. rewrite S.
      set (u := fold_left again [MuIn; MuEq; Rho; EpsAbs; EpsRel] t1). exists (if dbg then true else t_verb u).
      split; [destruct dbg; [|reflexivity]; unfold set_verb, tuned; rewrite B; reflexivity|].
      split; intros D; rewrite D; reflexivity.
    - pose (t0 := if dbg then set_verb (w_lib t (u_iter t) (u_par t) (u_verb t) n e i) true else w_lib t (u_iter t) (u_par t) (u_verb t) n e i).
      exists (fst (set_iter t0 (t_iter t0))), [Sigma; Alpha; Rho; EpsAbs; EpsRel].
      split; [unfold has_par; rewrite B; intros []; cbn; intros X; try discriminate X; auto 8|].
      assert (I0 : t_iter t0 = t_iter t) by (subst t0; unfold set_verb, tuned; rewrite B; destruct dbg; reflexivity).
      assert (S : fst (set_iter t0 (t_iter t0)) = w_uiter (w_iter t0 (t_iter t)) (t_iter t)) by (unfold set_iter; rewrite B, I0, Hz; reflexivity).
      assert (V0 : dbg = true -> t_verb t0 = true) by (intros D; subst t0; unfold set_verb, tuned; rewrite B, D; reflexivity).
      change (if dbg then _ else _) with t0. cbv zeta. rewrite S. cbn [w_iter w_uiter t_iter t_time t_warm t_par t_verb u_iter u_par u_verb u_sizes].
      assert (W : t_time t0 = t_time t /\ t_warm t0 = t_warm t /\ (forall p, t_par t0 p = t_par t p) /\ (dbg = false -> t_verb t0 = t_verb t) /\ u_sizes t0 = (n, e, i))
        by (subst t0; unfold set_verb, tuned; rewrite B; destruct dbg; repeat split; discriminate).
      destruct W as (W1 & W2 & W3 & W4 & W5). repeat (split; [auto; fail|]).
      eexists; split; [reflexivity|]. split; [|reflexivity]. intros D.
      match goal with |- t_verb (fold_left again ?ps ?u) = true => destruct (again_all ps u) as (R & _) end.
      apply kept_eq in R as (_ & _ & _ & R & _). rewrite R. exact (V0 D). }
  destruct G as (t1 & ps & P0 & A1 & A2 & A3 & A4 & A5 & A6 & A7 & v & E & V1 & V2).
  destruct (again_all ps t1) as (R & RT & RU). apply kept_eq in R as (R1 & R2 & R3 & R4 & R5 & R6 & R7).
  set (u := fold_left again ps t1) in *. rewrite E. unfold set_verb. rewrite T. cbn [t_iter t_time t_warm t_par t_verb u_iter u_par u_verb u_sizes].
  split; [congruence|]. split; [congruence|]. split; [congruence|]. split; [intros p; rewrite RT; apply A4|].
  split; [intros D; rewrite (V2 D), R4; auto|]. split; [|discriminate]. intros _.
  split; [congruence|]. split; [intros p Hp; rewrite RT; apply RU; auto|]. split; [reflexivity|]. split; [exact V1|congruence].
Qed.
Record cinv (l : list cop) (s : cst) : Prop := mkCI {
  c_iter : t_iter (snd s) = asked ask_iter 1000 l;
  c_time : t_time (snd s) = asked ask_time time0 l;
  c_warm : t_warm (snd s) = asked ask_warm true l;
  c_par : forall p, has_par p = true -> t_par (snd s) p = asked (ask_par p) (par0 p) l;
  c_verb : tuned = true -> dbg = false -> t_verb (snd s) = asked ask_verb false l;
  c_use : tuned = true -> sizes (fst s) <> (0, 0, 0) ->
    (forall p, has_par p = true -> u_par (snd s) p = t_par (snd s) p) /\ u_verb (snd s) = t_verb (snd s) /\ u_sizes (snd s) = sizes (fst s) /\
    (Forall no_zero l -> u_iter (snd s) = t_iter (snd s)) }.
Lemma asked_pos l : 0 < asked ask_iter 1000 l.
Proof.
  assert (G : forall l a, 0 < a -> 0 < asked ask_iter a l).
  { clear l. induction l as [|o l IH]; cbn [asked]; intros a H; [exact H|]. apply IH. destruct o; cbn; auto. destruct (Nat.eqb_spec n 0); lia. }
  apply G. lia.
Qed.
Lemma same_sizes_eq q q' : same_sizes q q' = true <-> sizes q = sizes q'.
Proof.
  unfold same_sizes, sizes. rewrite !andb_true_iff, !Nat.eqb_eq. split; [intros [[-> ->] ->]; reflexivity|intros E; injection E; auto].
Qed.
Lemma asked_skip {A} (f : cop -> option A) a l o : f o = None -> asked f a (l ++ [o]) = asked f a l.
Proof. intros H. rewrite asked_app, H. reflexivity. Qed.
Lemma cinv_call l q t q' o : cinv l (q, t) -> cinv (l ++ [CCall o]) (q', refreshed q q' t).
Proof.
  intros [H1 H2 H3 H4 H5 H6]. cbn [fst snd] in *. unfold refreshed. destruct (same_sizes q q') eqn:E.
  - apply same_sizes_eq in E. rewrite E in H6. constructor; cbn [fst snd]; intros; rewrite ?asked_skip by reflexivity; auto.
    destruct (H6 H H0) as (A & B & C & D). repeat split; auto. intros F. apply D. apply Forall_app in F. apply F.
  - assert (P := asked_pos l). rewrite <- H1 in P. destruct (refresh_t t (q_n q') (q_neq q') (q_nin q') P) as (R1 & R2 & R3 & R4 & R5 & R6 & R7).
    constructor; cbn [fst snd]; intros; rewrite ?asked_skip by reflexivity; rewrite ?R1, ?R2, ?R3, ?R4; auto.
    + rewrite R5; auto.
    + destruct (R6 H) as (A & B & C & _ & D). rewrite <- R1. repeat split; auto.
Qed.
Lemma cinv_step l s o s' : cinv l s -> after (cstep s o) = Some s' -> cinv (l ++ [o]) s'.
Proof.
  destruct s as [q t]. intros I E. destruct o as [o|n|x|w|p x|v]; cbn [cstep] in E.
  - destruct (sstep b dbg q o) as [q' r|q'|]; cbn in E; [injection E as <-|injection E as <-|discriminate]; apply cinv_call; exact I.
  - destruct I as [H1 H2 H3 H4 H5 H6]. cbn [fst snd] in *.
    assert (X : exists u r, set_iter t n = (u, r) /\
      t_iter u = (if n =? 0 then t_iter t else n) /\ t_time u = t_time t /\ t_warm u = t_warm t /\ t_par u = t_par t /\ t_verb u = t_verb t /\
      u_par u = u_par t /\ u_verb u = u_verb t /\ u_sizes u = u_sizes t /\ (tuned = true -> u_iter u = n)).
    { unfold set_iter, tuned, w_iter, w_uiter. destruct b; destruct (n =? 0); try destruct (l_accepts lib n);
        eexists; eexists; cbn; (split; [reflexivity|]); repeat split; try reflexivity; try discriminate. }
    destruct X as (u & r & Eu & U1 & U2 & U3 & U4 & U5 & U6 & U7 & U8 & U9). rewrite Eu in E. cbn [after] in E. injection E as <-.
    constructor; cbn [fst snd]; intros; rewrite ?asked_app; cbn [ask_iter ask_time ask_warm ask_par ask_verb].
    + rewrite U1, H1. destruct (n =? 0); reflexivity.
    + congruence. + congruence. + rewrite U4. auto. + rewrite U5. auto.
    + destruct (H6 H H0) as (A & B & C & D). rewrite U4, U5, U6, U7, U8. repeat split; auto. intros F. rewrite U9, U1 by exact H.
      apply Forall_app in F. destruct F as [_ F]. inversion F as [|? ? Z _]; subst. unfold no_zero in Z. destruct (Nat.eqb_spec n 0) as [->|]; [contradiction Z; reflexivity|reflexivity].
  - destruct I as [H1 H2 H3 H4 H5 H6]. cbn [fst snd] in *. unfold set_time in E. destruct (x <=? n0)%num eqn:X; cbn in E; injection E as <-;
      (constructor; cbn [fst snd t_iter t_time t_warm t_par t_verb u_iter u_par u_verb u_sizes]; intros; rewrite ?asked_app; cbn [ask_iter ask_time ask_warm ask_par ask_verb]; rewrite ?X; auto;
       destruct (H6 H H0) as (A & B & C & D); repeat split; auto; intros F; apply D; apply Forall_app in F; apply F).
  - destruct I as [H1 H2 H3 H4 H5 H6]. cbn [fst snd] in *. cbn in E. injection E as <-.
    constructor; cbn [fst snd set_warm t_iter t_time t_warm t_par t_verb u_iter u_par u_verb u_sizes]; intros; rewrite ?asked_app; cbn [ask_iter ask_time ask_warm ask_par ask_verb]; auto.
    destruct (H6 H H0) as (A & B & C & D); repeat split; auto; intros F; apply D; apply Forall_app in F; apply F.
  - destruct I as [H1 H2 H3 H4 H5 H6]. cbn [fst snd] in *. cbn in E. injection E as <-.
    assert (Hs : forall p', has_par p' = true -> t_par (set_par t p x) p' = if par_eqb p p' then x else t_par t p').
    { intros p' Hp'. unfold set_par. destruct (has_par p) eqn:Hp; [reflexivity|]. destruct (par_eqb p p') eqn:Q; [|reflexivity]. apply par_eqb_eq in Q. congruence. }
    assert (Hu : forall p', has_par p' = true -> u_par (set_par t p x) p' = if par_eqb p p' then x else u_par t p').
    { intros p' Hp'. unfold set_par. destruct (has_par p) eqn:Hp; [reflexivity|]. destruct (par_eqb p p') eqn:Q; [|reflexivity]. apply par_eqb_eq in Q. congruence. }
    assert (Hr : t_iter (set_par t p x) = t_iter t /\ t_time (set_par t p x) = t_time t /\ t_warm (set_par t p x) = t_warm t /\ t_verb (set_par t p x) = t_verb t /\
      u_iter (set_par t p x) = u_iter t /\ u_verb (set_par t p x) = u_verb t /\ u_sizes (set_par t p x) = u_sizes t) by (unfold set_par; destruct (has_par p); repeat split).
    destruct Hr as (R1 & R2 & R3 & R4 & R5 & R6 & R7).
    constructor; cbn [fst snd]; rewrite ?R1, ?R2, ?R3, ?R4, ?R5, ?R6, ?R7; intros; rewrite ?asked_app; cbn [ask_iter ask_time ask_warm ask_par ask_verb]; auto.
    + rewrite Hs by assumption. destruct (par_eqb p p0); auto.
    + destruct (H6 H H0) as (A & B & C & D). repeat split; auto.
      * intros p' Hp'. rewrite Hs, Hu by assumption. destruct (par_eqb p p'); auto.
      * intros F; apply D; apply Forall_app in F; apply F.
  - destruct I as [H1 H2 H3 H4 H5 H6]. cbn [fst snd] in *. cbn in E. injection E as <-. unfold set_verb.
    destruct tuned eqn:T; (constructor; cbn [fst snd t_iter t_time t_warm t_par t_verb u_iter u_par u_verb u_sizes]; intros; rewrite ?asked_app; cbn [ask_iter ask_time ask_warm ask_par ask_verb]; auto; try congruence).
    destruct (H6 eq_refl H0) as (A & B & C & D). repeat split; auto; intros F; apply D; apply Forall_app in F; apply F.
Qed.
Lemma cinv_new jk hb st : cinv [] (cnew jk hb st).
Proof.
  constructor; try reflexivity. unfold tuned, sizes, cnew. destruct b; cbn; try discriminate; intros _ X; contradiction X; reflexivity.
Qed.
Lemma settings l jk hb st s : run cstep (cnew jk hb st) l = Some s -> cinv l s.
Proof.
  revert s. induction l as [|o l IH] using rev_ind; intros s H; [cbn in H; injection H as <-; apply cinv_new|].
  rewrite run_app in H. destruct (run cstep (cnew jk hb st) l) as [s1|] eqn:E; [|discriminate]. cbn in H.
  destruct (after (cstep s1 o)) as [s2|] eqn:E2; [|discriminate]. injection H as <-. eapply cinv_step; [apply IH; reflexivity|exact E2].
Qed.

Lemma initial_par p d : initial p = Some d -> has_par p = true /\ par0 p = nofQ d.
Proof. unfold initial, has_par, par0. destruct b; destruct p; intros E; try discriminate; injection E as <-; split; reflexivity. Qed.

Lemma tuned_of : b = Prox \/ b = Osqp -> tuned = true.
Proof. unfold tuned. intros [-> | ->]; reflexivity. Qed.
Lemma zero_tuned t : b = Prox \/ b = Osqp -> set_iter t 0 = (w_uiter t 0, true).
Proof. unfold set_iter. intros [-> | ->]; reflexivity. Qed.
(** The getters give the last acceptable request. *)
Theorem getters l jk hb st s : run cstep (cnew jk hb st) l = Some s ->
  t_iter (snd s) = asked ask_iter 1000 l /\ t_time (snd s) = asked ask_time (nofQ 100) l /\ t_warm (snd s) = asked ask_warm true l.
Proof. intros H. apply settings in H. destruct H. auto. Qed.
(** The parameters in use once the solver was given sizes. *)
Theorem parameters l jk hb st s : run cstep (cnew jk hb st) l = Some s -> (b = Prox \/ b = Osqp) -> sizes (fst s) <> (0, 0, 0) ->
  u_sizes (snd s) = sizes (fst s) /\
  (forall p d, initial p = Some d -> u_par (snd s) p = asked (ask_par p) (nofQ d) l) /\
  (Forall no_zero l -> u_iter (snd s) = asked ask_iter 1000 l) /\
  (dbg = false -> u_verb (snd s) = asked ask_verb false l).
Proof.
  intros H T Z. apply settings in H. assert (T' := tuned_of T).
  destruct (c_use _ _ H T' Z) as (A & B & C & D). split; [exact C|]. split.
  - intros p d E. apply initial_par in E as [E1 E2]. rewrite A, (c_par _ _ H), E2 by exact E1. reflexivity.
  - split; [intros F; rewrite D by exact F; apply (c_iter _ _ H)|]. intros N. rewrite B. apply (c_verb _ _ H T' N).
Qed.
(** In a debug build any change of the sizes switches the messages on for good, until the
    next setVerbose. *)
Theorem debug_verbose q t o q' t' : dbg = true -> (b = Prox \/ b = Osqp) -> 0 < t_iter t -> after (cstep (q, t) (CCall o)) = Some (q', t') ->
  sizes q' <> sizes q -> u_verb t' = true /\ t_verb t' = true.
Proof.
  intros D T P H N. assert (T' := tuned_of T).
  assert (E : t' = refreshed q q' t) by (cbn [cstep] in H; destruct (sstep b dbg q o); cbn in H; congruence).
  unfold refreshed in E. destruct (same_sizes q q') eqn:S; [apply same_sizes_eq in S; congruence|].
  destruct (refresh_t t (q_n q') (q_neq q') (q_nin q') P) as (_ & _ & _ & _ & _ & R6 & _). rewrite <- E in R6.
  destruct (R6 T') as (_ & _ & V & W & _). rewrite V. auto.
Qed.
(** Eiquadprog: the last number of iterations its library accepted. *)
Definition ask_lib (o : cop) : option nat := match o with CIter n => if l_accepts lib n then Some n else None | _ => None end.
Definition quadprog : Prop := match b with Fast | Rt _ _ _ => True | _ => False end.
Lemma quad_refreshed q q' t : quadprog -> refreshed q q' t = t.
Proof. unfold quadprog, refreshed, refresh. intros Q. destruct (same_sizes q q'); [reflexivity|]. destruct b; try contradiction; reflexivity. Qed.
Lemma quad_iter t n : quadprog -> u_iter (fst (set_iter t n)) = if l_accepts lib n then n else u_iter t.
Proof. unfold quadprog, set_iter. intros Q. destruct b; try contradiction; destruct (l_accepts lib n); try reflexivity; destruct (n =? 0); reflexivity. Qed.
Theorem library_iterations l jk hb st s : run cstep (cnew jk hb st) l = Some s -> quadprog -> u_iter (snd s) = asked ask_lib (l_iter lib) l.
Proof.
  intros H Q. revert s H. induction l as [|o l IH] using rev_ind; intros s H; [cbn in H; injection H as <-; reflexivity|].
  rewrite run_app in H. destruct (run cstep (cnew jk hb st) l) as [[q t]|] eqn:E; [|discriminate]. cbn [run] in H. specialize (IH _ eq_refl). cbn [snd] in IH.
  destruct (after (cstep (q, t) o)) as [s2|] eqn:E2; [|discriminate]. injection H as <-. rewrite asked_app, <- IH. clear IH E.
  destruct o as [o|n|x|w|p x|v]; cbn [cstep ask_lib] in *.
  - assert (X : snd s2 = t) by (destruct (sstep b dbg q o) as [q' r|q'|]; cbn in E2; try discriminate; injection E2 as <-; apply quad_refreshed; exact Q).
    rewrite X. reflexivity.
  - assert (G := quad_iter t n Q). destruct (set_iter t n) as [t1 r]. cbn in E2, G. injection E2 as <-. cbn [snd]. rewrite G. destruct (l_accepts lib n); reflexivity.
  - unfold set_time in E2. destruct (x <=? n0)%num; cbn in E2; injection E2 as <-; reflexivity.
  - cbn in E2. injection E2 as <-. reflexivity.
  - cbn in E2. injection E2 as <-. unfold set_par. destruct (has_par p); reflexivity.
  - cbn in E2. injection E2 as <-. unfold set_verb. destruct tuned; reflexivity.
Qed.
(** What the setters of the base class answer. *)
Theorem answers q t :
  (forall n, exists s r, cstep (q, t) (CIter n) = Ret s r /\ fst s = q /\
     r = match b with Eiq | Qpmad => negb (n =? 0) | Fast | Rt _ _ _ => l_accepts lib n | _ => true end) /\
  (forall x, exists s, cstep (q, t) (CTime x) = Ret s (negb (x <=? n0)%num) /\ fst s = q).
Proof.
  split; [intros n; cbn [cstep]; unfold set_iter; destruct b; try destruct (l_accepts lib n); eexists; eexists; repeat split|].
  intros x. cbn [cstep]. unfold set_time. destruct (x <=? n0)%num; eexists; split; reflexivity.
Qed.
(** setMaximumIterations(0) answers true with prox and osqp and the library then runs with 0
    iterations although the getter shows the previous number; the next change of the sizes
    brings the previous number back. *)
Theorem zero_iterations l jk hb st q t o q' t' : (b = Prox \/ b = Osqp) -> run cstep (cnew jk hb st) l = Some (q, t) ->
  exists t0, cstep (q, t) (CIter 0) = Ret (q, t0) true /\ u_iter t0 = 0 /\ t_iter t0 = asked ask_iter 1000 l /\ t_iter t0 <> 0 /\
  (after (cstep (q, t0) (CCall o)) = Some (q', t') -> u_iter t' = if same_sizes q q' then 0 else asked ask_iter 1000 l).
Proof.
  intros T H. apply settings in H. assert (T' := tuned_of T).
  assert (C := c_iter _ _ H). cbn [snd] in C. assert (P := asked_pos l). rewrite <- C in P |- *.
  exists (w_uiter t 0). split; [cbn [cstep]; rewrite zero_tuned by exact T; reflexivity|].
  split; [reflexivity|]. split; [reflexivity|]. split; [cbn; lia|]. intros E.
  assert (E' : t' = refreshed q q' (w_uiter t 0)) by (cbn [cstep] in E; destruct (sstep b dbg q o); cbn in E; congruence).
  rewrite E'. unfold refreshed. destruct (same_sizes q q'); [reflexivity|].
  destruct (refresh_t (w_uiter t 0) (q_n q') (q_neq q') (q_nin q') P) as (R1 & _ & _ & _ & _ & R6 & _).
  destruct (R6 T') as (A & _). rewrite A, R1. reflexivity.
Qed.
End Settings.

(** * Copying a SolverOSQP (osqp:29-42): sizes and parameters are copied, m_qpData, m_output,
    m_solver and the members of the base class are those of a new object.  [hb] plays no part
    for osqp, [st] is the initial status of HQPOutput as in solver_new. *)
Section Copy.
Context {K : num}.
Variable dbg : bool.
Variable lib : @library K.
Definition copy_data (q : sst K) (hb : bool) (st : status) : sst K :=
  mkS (q_n q) (q_neq q) (q_nin q) (mzero 0 0) (vzero 0) (mzero 0 0) (vzero 0) (vzero 0) (mzero 0 0) (vzero 0)
      hb (vzero 0) (vzero 0) (vzero 0) st.
Definition copy_settings (t : @sset K) : sset :=
  mkT 1000 time0 true (t_par t) (t_verb t) (l_iter lib) (l_par lib) (l_verb lib) (0, 0, 0).
Definition osqp_copy (s : @cst K) (hb : bool) (st : status) : cst := (copy_data (fst s) hb st, copy_settings (snd s)).

(** A problem with the number of variables of the original. *)
Theorem copy_fails q hb st n P cl1 jk ans x : pwf n P -> nth_error P 1 = Some cl1 -> cl1 <> [] -> 0 < n -> q_n q = n ->
  solve Osqp dbg jk (copy_data q hb st) P ans x = Undef.
Proof.
  intros (cl0 & cl & -> & Hne & W0 & W1 & Hk) E N Hn Eq. cbn in E. injection E as ->.
  unfold solve, prepare. cbn [length Nat.ltb Nat.leb].
  destruct (level0 Osqp dbg jk (copy_data q hb st) cl0) as [s1|] eqn:E; [|reflexivity].
  assert (H0 : mrows (q_H s1) = 0).
  { destruct cl0 as [|[w c] cl0]; [contradiction Hne; reflexivity|]. unfold level0 in E. cbn [snd] in E.
    destruct (cwf_rows n c (W0 w c (or_introl eq_refl))) as [_ Hc]. rewrite Hc in E. cbn [obind] in E.
    destruct (counts Osqp n ((w, c) :: cl0)) as [[[neq nin] h]|]; [|discriminate]. cbn [obind] in E.
    cbn [resize note_bounds copy_data q_n q_neq q_nin q_CE q_ce0 q_CI q_cil q_ciu q_H q_g q_hasb q_lb q_ub q_x q_status] in E.
    rewrite Eq, Nat.eqb_refl in E. cbn [negb orb] in E. cbn [obind] in E.
    match type of E with context[ofold ?f ?l ?x] => destruct (ofold f l x) as [[[s2 i1] i2]|] eqn:F; [|discriminate] end.
    cbn [obind] in E. injection E as <-. apply fills_dims in F as [_ F].
    unfold SolverSizes.rest in F. injection F as F _ _ _ _. rewrite F. reflexivity. }
  destruct cl1 as [|[w c] cl1]; [contradiction N; reflexivity|]. unfold level1. cbn [add_costs].
  rewrite (Hk w c (or_introl eq_refl)). unfold add_cost.
  assert (G : (mcols (c_mat c) =? mrows (q_H (zero_cost s1))) = false).
  { cbn. rewrite H0. apply Nat.eqb_neq. specialize (W1 w c (or_introl eq_refl)). unfold cwf in W1. rewrite (Hk w c (or_introl eq_refl)) in W1. lia. }
  rewrite G. reflexivity.
Qed.
(** A problem with another number of variables. *)
Theorem copy_fresh q hb st n P jk jk0 ans x : pwf n P -> 0 < n -> q_n q <> n ->
  solve Osqp dbg jk (copy_data q hb st) P ans x = solve Osqp dbg jk (solver_new Osqp jk0 hb st) P ans x.
Proof.
  intros (cl0 & cl & -> & Hne & W0 & W1 & Hk) Hn Eq. unfold solve, prepare. cbn [length Nat.ltb Nat.leb].
  assert (L : level0 Osqp dbg jk (copy_data q hb st) cl0 = level0 Osqp dbg jk (solver_new Osqp jk0 hb st) cl0); [|rewrite L; reflexivity].
  destruct cl0 as [|[w c] cl0]; [contradiction Hne; reflexivity|]. unfold level0. cbn [snd].
  destruct (cwf_rows n c (W0 w c (or_introl eq_refl))) as [_ Hc]. rewrite Hc. cbn [obind].
  destruct (counts Osqp n ((w, c) :: cl0)) as [[[neq nin] h]|]; [|reflexivity]. cbn [obind].
  assert (R : resize Osqp dbg jk (note_bounds Osqp (copy_data q hb st) h) n neq nin = resize Osqp dbg jk (note_bounds Osqp (solver_new Osqp jk0 hb st) h) n neq nin); [|rewrite R; reflexivity].
  cbn. rewrite (proj2 (Nat.eqb_neq n (q_n q))) by congruence. rewrite (proj2 (Nat.eqb_neq n 0)) by lia. reflexivity.
Qed.
(** Settings of the copy: the parameters and the verbosity are those of the original, the
    number of iterations, the time and the warm start are the initial ones. *)
Theorem copy_keeps s hb st o s' :
  after (cstep Osqp dbg lib (osqp_copy s hb st) (CCall Osqp o)) = Some s' -> sizes (fst s') <> sizes (fst s) ->
  (forall p d, initial Osqp p = Some d -> u_par (snd s') p = t_par (snd s) p) /\ u_iter (snd s') = 1000 /\ t_iter (snd s') = 1000 /\
  t_time (snd s') = nofQ 100 /\ t_warm (snd s') = true /\ (dbg = false -> u_verb (snd s') = t_verb (snd s)).
Proof.
  intros H N. destruct s as [q t]. destruct s' as [q' t']. unfold osqp_copy in H. cbn [fst snd] in *.
  assert (E : t' = refreshed Osqp dbg lib (copy_data q hb st) q' (copy_settings t)) by (cbn [cstep] in H; destruct (sstep Osqp dbg (copy_data q hb st) o); cbn in H; congruence).
  unfold refreshed in E. destruct (same_sizes (copy_data q hb st) q') eqn:S; [apply same_sizes_eq in S; unfold sizes in *; cbn in S; congruence|].
  destruct (refresh_t Osqp dbg lib (copy_settings t) (q_n q') (q_neq q') (q_nin q')) as (R1 & R2 & R3 & R4 & R5 & R6 & _); [cbn; lia|].
  destruct (R6 eq_refl) as (A & B & C & D & _). rewrite <- E in *.
  split; [intros p d I0; destruct (initial_par (K:=K) Osqp p d I0) as [I1 _]; rewrite B, R4 by exact I1; reflexivity|].
  split; [rewrite A, R1; reflexivity|]. split; [exact R1|]. split; [exact R2|]. split; [exact R3|]. intros F. rewrite C, R5 by exact F. reflexivity.
Qed.
End Copy.
