(** What a solve without optimum leaves in the output, and the sizes of the output of
    SolverHQuadProgRT before any optimum. *)
From Coq Require Import List Arith Bool ZArith Lia.
From Verif Require Import Scalar Outcome Linalg Constraint Solvers SolverSpec SolverSizes SolverMain SolverOutput.
Import ListNotations.
Open Scope list_scope.
Open Scope nat_scope.

Section Kept.
Context {K : num}.
Implicit Types (s : sst K).
Lemma resize_x b dbg jk s n neq nin s' : resize b dbg jk s n neq nin = Some s' -> q_n s' = q_n s -> q_x s' = q_x s.
Proof.
  unfold resize. intros H N. destruct b; try (destruct (_ && _); [discriminate|]); injection H as <-; try reflexivity.
  all: cbn [q_n] in N; cbn [q_x]; rewrite N, Nat.eqb_refl; reflexivity.
Qed.
Lemma note_x b s h : q_x (note_bounds b s h) = q_x s /\ q_n (note_bounds b s h) = q_n s. Proof. destruct b; split; reflexivity. Qed.
Lemma reset_x b s : q_x (reset_bounds b s) = q_x s /\ q_n (reset_bounds b s) = q_n s.
Proof. destruct b; try (split; reflexivity). cbn. destruct (q_hasb s); split; reflexivity. Qed.
Lemma level0_x b dbg jk s cl0 s' : level0 b dbg jk s cl0 = Some s' -> q_n s' = q_n s -> q_x s' = q_x s.
Proof.
  destruct cl0 as [|wc l]; cbn [level0].
  - intros H N. destruct (note_x b s false) as [X1 X2]. rewrite <- X1. eapply resize_x; [exact H|]. congruence.
  - intros H N. destruct (ccols (snd wc)) as [n|]; [cbn [obind] in H|discriminate].
    destruct (counts b n (wc :: l)) as [[[e i] h]|]; [cbn [obind] in H|discriminate].
    destruct (resize b dbg jk (note_bounds b s h) n e i) as [u|] eqn:E; [cbn [obind] in H|discriminate].
    destruct (ofold (fill b) (wc :: l) (reset_bounds b u, 0, 0)) as [[[v a1] b1]|] eqn:G; [cbn [obind] in H|discriminate].
    injection H as <-. apply fills_dims in G as [G1 G2]. unfold rest in G2. injection G2 as _ _ _ G2 _. unfold dims in G1. injection G1 as G1.
    destruct (reset_x b u) as [Y1 Y2]. destruct (note_x b s h) as [X1 X2]. rewrite G2, Y1, <- X1. eapply resize_x; [exact E|]. congruence.
Qed.
(** An answer that is not an optimum: proxqp and osqp leave x as it was while the number of
    variables stays the same; the others hand out whatever their library left in it. *)
Theorem unsolved_x b dbg jk s P ans x s' t y : solve b dbg jk s P ans x = Ret s' (t, y) -> ~ optimum b ans ->
  match b with Prox | Osqp => q_n s' = q_n s -> y = q_x s | _ => y = x end.
Proof.
  intros H No. apply solve_prepare in H as (s1 & E & -> & R). injection R as -> ->. cbn [w_out q_x q_n].
  assert (X : q_n s1 = q_n s -> q_x s1 = q_x s).
  { intros N. destruct P as [|cl0 P]; [discriminate|]. cbn [prepare] in E. destruct (2 <? _); [discriminate|].
    destruct (level0 b dbg jk s cl0) as [u|] eqn:L; [|discriminate]. destruct P as [|cl1 P].
    - injection E as <-. eapply level0_x; eauto.
    - pose proof (level1_dims b (default_flag b) u cl1) as D. rewrite E in D. destruct D as [_ D]. rewrite D in N |- *. cbn [w_cost q_n q_x] in N |- *. eapply level0_x; eauto. }
  destruct b; cbn [new_x]; try reflexivity; destruct ans; try exact X; exfalso; apply No; reflexivity.
Qed.
(** Without an optimum the output of rt keeps the sizes of its template arguments. *)
Theorem rt_sizes (inf : K) nv ne ni dbg jk ji hb st it0 ob0 o :
  reach (ostep inf (Rt nv ne ni) dbg)
    (fun _ c => match c with OSolve _ P jk ji a => ~ optimum (Rt nv ne ni) (acode inf (Rt nv ne ni) a) | _ => True end)
    (out_new (Rt nv ne ni) jk ji hb st it0 ob0) o ->
  vlen (o_lam o) = ne + 2 * ni /\ List.length (o_act o) = 2 * ni /\ o_it o = it0.
Proof.
  apply (reach_inv (ostep inf (Rt nv ne ni) dbg) _ (fun o => vlen (o_lam o) = ne + 2 * ni /\ List.length (o_act o) = 2 * ni /\ o_it o = it0)).
  - cbn [out_new o_lam o_act o_it]. split; [reflexivity|]. split; [|reflexivity]. unfold ints. rewrite map_length, seq_length. reflexivity.
  - intros o1 c o2 I Hc A. destruct c as [n neq nin jk1 ji1 ob|P flag jk1 ji1 ob|P jk1 ji1 a]; cbn [ostep] in A.
    + destruct (resize _ dbg jk1 (o_s o1) n neq nin); [|discriminate]. injection A as <-. exact I.
    + destruct (retrieve _ dbg jk1 (o_s o1) P flag); try discriminate; injection A as <-; exact I.
    + destruct (osolve inf (Rt nv ne ni) dbg jk1 ji1 o1 P a) as [o' r|o'|] eqn:E; try discriminate; injection A as <-.
      * destruct (stale_fields inf _ dbg jk1 ji1 o1 P a o' r E Hc) as (-> & -> & ->); [discriminate|exact I].
      * unfold osolve in E. destruct (solve _ dbg jk1 (o_s o1) P _ (a_x a)) as [s1 r1|s1|]; try discriminate.
        -- destruct (written _ _ _); discriminate.
        -- injection E as <-. exact I.
Qed.
End Kept.
